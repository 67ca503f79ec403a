(** Proofs about generated fields. *)
From Coq Require Import String Ascii ZArith NArith Arith Bool Lia List DecimalString.
From Verif Require Import Base Ordered JsonModel TypeModel ConfigModel MustacheModel UrlModel GenModel OpGenModel.
From Verif Require ScalarModel ScalarSpec ScalarProofs.
From Verif Require Import MustacheSpec GenSpec OpGenSpec BaseFacts StringFacts OrderedFacts MustacheProofs GenProofs.
Import ListNotations.
Open Scope list_scope.
Open Scope string_scope.

Lemma all_app P a b : all P (a ++ b) <-> all P a /\ all P b.
Proof.
  induction a as [|c a IH]; cbn; [split; [intros H; split; [constructor|exact H]|now intros [_ H]]|].
  split.
  - intros H. inversion H; subst. rewrite IH in H3. destruct H3. split; [constructor; auto|auto].
  - intros [H K]. inversion H; subst. constructor; [auto|]. apply IH. auto.
Qed.
Lemma digit_iff c : is_digit c = true <-> digit c.
Proof. unfold is_digit, digit. rewrite andb_true_iff, !N.leb_le. tauto. Qed.
Lemma word_spec c : is_word c = true <-> word c.
Proof.
  unfold is_word, word, is_alpha. rewrite !orb_true_iff, !andb_true_iff, !N.leb_le, digit_iff, Ascii.eqb_eq. tauto.
Qed.
Lemma hex_iff c : is_lower_hex c = true <-> lower_hex c.
Proof. unfold is_lower_hex, lower_hex. rewrite orb_true_iff, andb_true_iff, !N.leb_le, digit_iff. tauto. Qed.

Lemma span_spec p s : exists a b, span p s = (a, b) /\ s = a ++ b /\ all (fun c => p c = true) a /\
  (b = "" \/ exists c t, b = String c t /\ p c = false).
Proof.
  induction s as [|c s (a & b & E & -> & A & B)]; cbn.
  - exists "", "". repeat split; auto. constructor.
  - rewrite E. destruct (p c) eqn:P.
    + exists (String c a), b. repeat split; auto. constructor; auto.
    + exists "", (String c (a ++ b)). repeat split; [constructor|]. right. eauto.
Qed.
Lemma span_of p a b : all (fun c => p c = true) a -> (b = "" \/ exists c t, b = String c t /\ p c = false) -> span p (a ++ b) = (a, b).
Proof.
  intros A B. induction A as [|c a C A IH]; cbn.
  - destruct B as [-> |(c & t & -> & C)]; cbn; [reflexivity|now rewrite C].
  - now rewrite C, IH.
Qed.
Lemma all_impl (P Q : ascii -> Prop) s : (forall c, P c -> Q c) -> all P s -> all Q s.
Proof. intros H. induction 1; constructor; auto. Qed.

Lemma match_int_some s d : match_int s = Some d -> number d /\ exists b, s = d ++ b /\ ends_word b.
Proof.
  unfold match_int. destruct (span_spec is_digit s) as (a & b & -> & -> & A & B). destruct a as [|c a]; [discriminate|].
  intros H. assert (N : number (String c a)).
  { split; [discriminate|]. eapply all_impl; [|exact A]. intros x X. now apply digit_iff. }
  destruct b as [|c' b]; [injection H as <-; split; [exact N|]; exists ""; split; [now rewrite ?str_app_nil_r|now left]|].
  destruct (is_word c') eqn:W; [discriminate|]. injection H as <-. split; [exact N|]. exists (String c' b). split; [reflexivity|].
  right. exists c', b. split; [reflexivity|]. rewrite <- word_spec. congruence.
Qed.
Lemma match_int_none s d b : match_int s = None -> s = d ++ b -> ~ (number d /\ ends_word b).
Proof.
  intros H -> ((Ne & D) & E). unfold match_int in H. rewrite span_of in H.
  - destruct d as [|c d]; [congruence|]. destruct E as [-> |(c' & t & -> & W)]; [discriminate|].
    destruct (is_word c') eqn:X; [apply word_spec in X; contradiction|discriminate].
  - eapply all_impl; [|exact D]. intros x X. now apply digit_iff.
  - destruct E as [-> |(c' & t & -> & W)]; [now left|right]. exists c', t. split; [reflexivity|].
    destruct (is_digit c') eqn:X; [|reflexivity]. destruct W. apply word_spec. unfold is_word. rewrite X, orb_true_r. reflexivity.
Qed.

Lemma exactly_some p n : forall s a b, exactly p n s = Some (a, b) -> s = a ++ b /\ String.length a = n /\ all (fun c => p c = true) a.
Proof.
  induction n as [|n IH]; intros s a b H; cbn in H; [injection H as <- <-; repeat split; constructor|].
  destruct s as [|c s]; [discriminate|]. destruct (p c) eqn:P; [|discriminate].
  destruct (exactly p n s) as [[a' b']|] eqn:E; [|discriminate]. injection H as <- <-.
  destruct (IH _ _ _ E) as (-> & <- & A). repeat split. constructor; auto.
Qed.
Lemma exactly_of p a b : all (fun c => p c = true) a -> exactly p (String.length a) (a ++ b) = Some (a, b).
Proof. induction 1 as [|c a C A IH]; cbn; [reflexivity|]. now rewrite C, IH. Qed.
Lemma exactly_slash p n : p "/"%char = false -> forall t r, exactly p n (t ++ String "/" r) =
  match exactly p n t with Some (a, b) => Some (a, b ++ String "/" r) | None => None end.
Proof.
  intros P. induction n as [|n IH]; intros t r; cbn; [reflexivity|]. destruct t as [|c t]; cbn; [now rewrite P|].
  destruct (p c); [|reflexivity]. rewrite IH. destruct (exactly p n t) as [[a b]|]; reflexivity.
Qed.
Lemma match_groups_slash l : forall t r, match_groups l (t ++ String "/" r) = match_groups l t.
Proof.
  induction l as [|n l IH]; intros t r; [reflexivity|]. cbn [match_groups]. rewrite exactly_slash by reflexivity.
  destruct (exactly is_lower_hex n t) as [[a b]|]; [|reflexivity]. destruct l as [|n' l]; [reflexivity|].
  destruct b as [|c b]; cbn [append tag]; [reflexivity|]. destruct (Ascii.eqb "-" c); [|reflexivity]. now rewrite IH.
Qed.
Lemma match_groups_some l : forall s u, match_groups l s = Some u -> exists b, s = u ++ b.
Proof.
  induction l as [|n l IH]; intros s u H; cbn [match_groups] in H; [injection H as <-; exists s; reflexivity|].
  destruct (exactly is_lower_hex n s) as [[a b]|] eqn:E; [|discriminate]. destruct (exactly_some _ _ _ _ _ E) as (-> & _ & _).
  destruct l as [|n' l]; [injection H as <-; eauto|].
  destruct b as [|c b]; cbn [tag] in H; [discriminate|]. destruct (Ascii.eqb "-" c) eqn:C; [|discriminate].
  apply Ascii.eqb_eq in C. subst c. destruct (match_groups (n' :: l) b) as [v|] eqn:G; [|discriminate]. injection H as <-.
  destruct (IH _ _ G) as (r & ->). exists r. rewrite !str_app_assoc. reflexivity.
Qed.
Lemma hex_all s : all lower_hex s -> all (fun c => is_lower_hex c = true) s.
Proof. apply all_impl. intros c. apply hex_iff. Qed.
Lemma hex_all' s : all (fun c => is_lower_hex c = true) s -> all lower_hex s.
Proof. apply all_impl. intros c. apply hex_iff. Qed.
Inductive grouped : list nat -> string -> Prop :=
| grouped_one n a : String.length a = n -> all lower_hex a -> grouped [n] a
| grouped_more n n' l a b : String.length a = n -> all lower_hex a -> grouped (n' :: l) b -> grouped (n :: n' :: l) (a ++ "-" ++ b).
Lemma match_groups_grouped l : forall s u, l <> [] -> match_groups l s = Some u -> grouped l u.
Proof.
  induction l as [|n l IH]; intros s u Ne H; [congruence|]. cbn [match_groups] in H.
  destruct (exactly is_lower_hex n s) as [[a b]|] eqn:E; [|discriminate]. destruct (exactly_some _ _ _ _ _ E) as (-> & L & A).
  destruct l as [|n' l]; [injection H as <-; constructor; [exact L|now apply hex_all']|].
  destruct (tag "-" b) as [r|]; [|discriminate]. destruct (match_groups (n' :: l) r) as [v|] eqn:G; [|discriminate]. injection H as <-.
  constructor; [exact L|now apply hex_all'|]. eapply IH; [discriminate|exact G].
Qed.
Lemma match_groups_cons n n' l s : match_groups (n :: n' :: l) s =
  match exactly is_lower_hex n s with
  | None => None
  | Some (a, rest) => match tag "-" rest with
                      | None => None
                      | Some r => match match_groups (n' :: l) r with Some b => Some (a ++ "-" ++ b) | None => None end
                      end
  end.
Proof. reflexivity. Qed.
Lemma match_groups_of l u : grouped l u -> forall b, match_groups l (u ++ b) = Some u.
Proof.
  induction 1 as [n a L A|n n' l a u L A _ IH]; intros b.
  - subst n. cbn [match_groups]. rewrite exactly_of by now apply hex_all. reflexivity.
  - subst n. rewrite match_groups_cons, !str_app_assoc, exactly_of by now apply hex_all. cbn [append tag]. rewrite Ascii.eqb_refl. cbn [tag]. rewrite IH. reflexivity.
Qed.
Lemma uuid_grouped u : uuid u <-> grouped [8; 4; 4; 4; 12] u.
Proof.
  split.
  - intros (a & b & c & d & e & -> & (La & Lb & Lc & Ld & Le) & A & B & C & D & E).
    repeat (apply grouped_more; [assumption|assumption|]). apply grouped_one; assumption.
  - intros H. inversion H as [|? ? ? a s1 La A H1]; subst. inversion H1 as [|? ? ? b s2 Lb B H2]; subst.
    inversion H2 as [|? ? ? c s3 Lc C H3]; subst. inversion H3 as [|? ? ? d s4 Ld D H4]; subst. inversion H4 as [? e Le E|]; subst.
    exists a, b, c, d, s4. repeat split; assumption.
Qed.
Lemma match_uuid_some s u : match_uuid s = Some u -> uuid u /\ exists b, s = u ++ b.
Proof. intros H. split; [|eapply match_groups_some; exact H]. apply uuid_grouped. eapply match_groups_grouped; [discriminate|exact H]. Qed.
Lemma match_uuid_none s d b : match_uuid s = None -> s = d ++ b -> ~ uuid d.
Proof. intros H -> U. apply uuid_grouped in U. unfold match_uuid in H. rewrite (match_groups_of _ _ U) in H. discriminate. Qed.

(** ** One pass *)
Definition tpl (p : piece) : string := match p with Fixed t => t | Hole k _ _ => "/" ++ expr_text k end.
Definition texts (l : list piece) : string := joined (map piece_text l).
Definition tpls (l : list piece) : string := joined (map tpl l).
Lemma texts_cons p l : texts (p :: l) = piece_text p ++ texts l.
Proof. apply concat_nil_cons. Qed.
Lemma tpls_cons p l : tpls (p :: l) = tpl p ++ tpls l.
Proof. apply concat_nil_cons. Qed.
Definition hole_args (l : list piece) : list (string * typ) :=
  flat_map (fun p => match p with Hole k ty _ => [(k, TNamed ty true)] | _ => [] end) l.
(** Text put in front. *)
Definition glue (c : ascii) (l : list piece) : list piece :=
  match l with Fixed t :: r => Fixed (String c t) :: r | _ => Fixed (String c "") :: l end.
Lemma glue_texts c l : texts (glue c l) = String c (texts l).
Proof. destruct l as [|[t|k ty t] l]; cbn [glue]; rewrite ?texts_cons; reflexivity. Qed.
Lemma glue_tpls c l : tpls (glue c l) = String c (tpls l).
Proof. destruct l as [|[t|k ty t] l]; cbn [glue]; rewrite ?tpls_cons; reflexivity. Qed.
Lemma glue_args c l : hole_args (glue c l) = hole_args l.
Proof. destruct l as [|[t|k ty t] l]; reflexivity. Qed.
Lemma glue_apart c l : apart l -> apart (glue c l).
Proof. destruct l as [|[t|k ty t] l]; cbn; intuition discriminate. Qed.
Lemma glue_hole c l k ty t : In (Hole k ty t) (glue c l) <-> In (Hole k ty t) l.
Proof. destruct l as [|[t'|k' ty' t'] l]; cbn; intuition discriminate. Qed.

Section Pass.
  Variable m : string -> option string.
  Variable type : string.
  Hypothesis m_prefix : forall s d, m s = Some d -> exists b, s = d ++ b.

  Lemma skip_all d : forall b k, replace_all m type (d ++ b) (String.length d) k = replace_all m type b 0 k.
  Proof. induction d as [|c d IH]; intros b k; [reflexivity|]. cbn. apply IH. Qed.

  (** Keys from [k] on, in order. *)
  Fixpoint keyed (k : Z) (l : list piece) : Prop :=
    match l with
    | [] => True
    | Fixed _ :: r => keyed k r
    | Hole key ty _ :: r => key = arg_key k /\ ty = type /\ keyed (k + 1) r
    end.
  Fixpoint count (l : list piece) : Z := match l with [] => 0 | Fixed _ :: r => count r | Hole _ _ _ :: r => 1 + count r end.

  (** What a fixed text may hold: no match, up to the next piece. *)
  Fixpoint unmatched (l : list piece) : Prop :=
    match l with
    | [] => True
    | Hole _ _ _ :: r => unmatched r
    | Fixed t :: r => (forall a b, t = a ++ String "/" b -> m (b ++ texts r) = None) /\ unmatched r
    end.
  Definition found (l : list piece) : Prop := forall k ty t, In (Hole k ty t) l -> exists b, m (t ++ b) = Some t.

  Lemma pass_aux n : forall s k, String.length s <= n -> exists l, texts l = s /\ apart l /\ keyed k l /\ unmatched l /\ found l /\
    replace_all m type s 0 k = (tpls l, hole_args l, (k + count l)%Z).
  Proof.
    induction n as [|n IH]; intros s k L.
    - destruct s; [|cbn in L; lia]. exists []. cbn. rewrite Z.add_0_r. repeat split; auto. intros k' ty t [].
    - destruct s as [|c s]; [exists []; cbn; rewrite Z.add_0_r; repeat split; auto; intros k' ty t []|].
      cbn [replace_all]. destruct (if Ascii.eqb c "/" then m s else None) as [d|] eqn:M.
      + destruct (Ascii.eqb c "/") eqn:C; [|discriminate]. apply Ascii.eqb_eq in C. subst c.
        destruct (m_prefix _ _ M) as (b & ->). rewrite skip_all.
        destruct (IH b (k + 1)%Z) as (l & T & A & K & U & F & R).
        { cbn in L. rewrite str_app_length in L. lia. }
        rewrite R. exists (Hole (arg_key k) type d :: l). rewrite texts_cons, tpls_cons. cbn [piece_text tpl keyed unmatched hole_args flat_map app count apart].
        rewrite T. repeat split; auto.
        * intros k' ty t [H|H]; [injection H as <- <- <-; exists b; exact M|eapply F; exact H].
        * f_equal. lia.
      + destruct (IH s k) as (l & T & A & K & U & F & R); [cbn in L; lia|]. rewrite R. exists (glue c l).
        rewrite glue_texts, glue_tpls, glue_args, T. split; [reflexivity|]. split; [now apply glue_apart|].
        assert (N : forall b, String c s = String "/" b -> m s = None).
        { intros b H. injection H as -> ->. now rewrite Ascii.eqb_refl in M. }
        repeat split.
        * destruct l as [|[t|k' ty' t'] l]; exact K.
        * destruct l as [|[t|k' ty' t'] l]; cbn [glue unmatched] in *.
          -- split; [|exact Logic.I]. intros a b H. destruct a as [|c' a]; [injection H as -> <-|injection H as _ H; destruct a; discriminate].
             cbn. cbn in T. rewrite T. eapply N. reflexivity.
          -- destruct U as [U1 U2]. split; [|exact U2]. rewrite texts_cons in T. cbn in T. intros a b H.
             destruct a as [|c' a]; [injection H as -> ->; rewrite T; eapply N; reflexivity|]. injection H as _ H. eapply U1. exact H.
          -- split; [|exact U]. intros a b H. destruct a as [|c' a]; [injection H as -> <-|injection H as _ H; destruct a; discriminate].
             cbn [append]. rewrite T. eapply N. reflexivity.
        * intros k' ty t H. apply glue_hole in H. eapply F; exact H.
        * do 2 f_equal. destruct l as [|[t|k' ty' t'] l]; reflexivity.
  Qed.
  Lemma pass s k : exists l, texts l = s /\ apart l /\ keyed k l /\ unmatched l /\ found l /\
    replace_all m type s 0 k = (tpls l, hole_args l, (k + count l)%Z).
  Proof. apply (pass_aux (String.length s)). lia. Qed.
End Pass.

(** ** The second pass *)
Definition slashy (s : string) : Prop := s = "" \/ exists r, s = String "/" r.
Section Second.
  Variable m : string -> option string.
  Variable type : string.
  Hypothesis m_prefix : forall s d, m s = Some d -> exists b, s = d ++ b.
  Hypothesis m_slash : forall t r, m (t ++ String "/" r) = m t.

  Lemma rep_app_aux n : forall t rest k, String.length t <= n -> slashy rest ->
    replace_all m type (t ++ rest) 0 k =
    let '(o1, a1, k1) := replace_all m type t 0 k in
    let '(o2, a2, k2) := replace_all m type rest 0 k1 in (o1 ++ o2, (a1 ++ a2)%list, k2).
  Proof.
    induction n as [|n IH]; intros t rest k L S.
    - destruct t; [|cbn in L; lia]. cbn. destruct (replace_all m type rest 0 k) as [[o a] k']. reflexivity.
    - destruct t as [|c t]; [cbn; destruct (replace_all m type rest 0 k) as [[o a] k']; reflexivity|].
      assert (E : m (t ++ rest) = m t) by (destruct S as [-> |(r & ->)]; [now rewrite str_app_nil_r|apply m_slash]).
      cbn [append replace_all]. rewrite E. destruct (if Ascii.eqb c "/" then m t else None) as [d|] eqn:M.
      + assert (M' : m t = Some d) by (destruct (Ascii.eqb c "/"); [exact M|discriminate]).
        destruct (m_prefix _ _ M') as (b & ->). rewrite str_app_assoc, !skip_all, IH; [|cbn in L; rewrite str_app_length in L; lia|exact S].
        destruct (replace_all m type b 0 (k + 1)) as [[o1 a1] k1]. destruct (replace_all m type rest 0 k1) as [[o2 a2] k2].
        cbn [append]. now rewrite ?str_app_assoc.
      + rewrite IH; [|cbn in L; lia|exact S]. destruct (replace_all m type t 0 k) as [[o1 a1] k1].
        destruct (replace_all m type rest 0 k1) as [[o2 a2] k2]. reflexivity.
  Qed.
  Lemma rep_app t rest k : slashy rest -> replace_all m type (t ++ rest) 0 k =
    let '(o1, a1, k1) := replace_all m type t 0 k in
    let '(o2, a2, k2) := replace_all m type rest 0 k1 in (o1 ++ o2, (a1 ++ a2)%list, k2).
  Proof. apply (rep_app_aux (String.length t)). lia. Qed.
  Lemma rep_plain t : (forall a b, t <> a ++ String "/" b) -> forall rest k, replace_all m type (t ++ rest) 0 k =
    let '(o2, a2, k2) := replace_all m type rest 0 k in (t ++ o2, a2, k2).
  Proof.
    induction t as [|c t IH]; intros N rest k; [cbn; destruct (replace_all m type rest 0 k) as [[o a] k']; reflexivity|].
    cbn [append replace_all]. assert (C : Ascii.eqb c "/" = false).
    { apply Ascii.eqb_neq. intros ->. now apply (N "" t). }
    rewrite C, IH; [|intros a b ->; now apply (N (String c a) b)]. destruct (replace_all m type rest 0 k) as [[o a] k']. reflexivity.
  Qed.
End Second.

Lemma no_slash s : all (fun c => c <> "/"%char) s -> forall a b, s <> a ++ String "/" b.
Proof. induction 1 as [|c s C _ IH]; intros a b H; [destruct a; discriminate|]. destruct a as [|d a]; injection H as -> H; [congruence|]. eapply IH, H. Qed.

Lemma uint_digits d : all digit (NilZero.string_of_uint d).
Proof.
  assert (H : forall d, all digit (NilEmpty.string_of_uint d)).
  { induction d0; cbn; repeat (apply all_cons || apply all_nil); auto; unfold digit; cbn; lia. }
  unfold NilZero.string_of_uint. destruct d; try apply H. apply all_cons; [unfold digit; cbn; lia|apply all_nil].
Qed.
Lemma key_digits k : (0 <= k)%Z -> all digit (Z_to_string k).
Proof. intros H. unfold Z_to_string. destruct k as [|p|p]; [apply (uint_digits)|apply (uint_digits)|lia]. Qed.
Lemma arg_key_inj a b : arg_key a = arg_key b -> a = b.
Proof. unfold arg_key. intros H. apply str_app_inv_head in H. now apply Z_to_string_inj. Qed.
Lemma arg_key_name k : (0 <= k)%Z -> name (arg_key k).
Proof.
  intros H. unfold arg_key. cbn. apply Name; [reflexivity|]. repeat (apply WC_cons; [reflexivity|]).
  induction (key_digits k H) as [|c s C _ IH]; constructor; [|exact IH]. apply word_spec. now left.
Qed.
Lemma expr_text_no k c : (0 <= k)%Z -> c = "/"%char \/ c = "%"%char -> all (fun x => x <> c) (expr_text (arg_key k)).
Proof.
  intros H C. unfold expr_text, arg_key. rewrite !all_app. split; [|split; [split|]].
  1,2,4: repeat (apply all_cons; [destruct C as [-> | ->]; discriminate|]); apply all_nil.
  eapply all_impl; [|apply key_digits, H]. intros x X ->. unfold digit in X. destruct C as [-> | ->]; cbn in X; lia.
Qed.

(** The pieces of both passes: each fixed text of the first is cut again. *)
Inductive refined : Z -> list piece -> list piece -> Z -> Prop :=
| refined_nil k : refined k [] [] k
| refined_hole k key ty t l l' k' : refined k l l' k' -> refined k (Hole key ty t :: l) (Hole key ty t :: l') k'
| refined_fixed k t c l l' k' : texts c = t -> apart c -> keyed "String" k c -> unmatched match_uuid c -> found match_uuid c ->
    refined (k + count c) l l' k' -> refined k (Fixed t :: l) (c ++ l')%list k'.

Lemma texts_app a b : texts (a ++ b)%list = texts a ++ texts b.
Proof. unfold texts, joined. rewrite map_app. apply concat_nil_app. Qed.
Lemma tpls_app a b : tpls (a ++ b)%list = tpls a ++ tpls b.
Proof. unfold tpls, joined. rewrite map_app. apply concat_nil_app. Qed.
Lemma apart_slashy l : apart l -> match l with Fixed _ :: _ => False | _ => slashy (tpls l) /\ slashy (texts l) end \/ exists t r, l = Fixed t :: r.
Proof.
  destruct l as [|[t|k ty t] l]; intros A; [left; split; now left|right; eauto|left].
  rewrite texts_cons, tpls_cons. split; right; eexists; reflexivity.
Qed.
Lemma apart_tail t l : apart (Fixed t :: l) -> apart l /\ slashy (tpls l) /\ slashy (texts l) /\ forall u r, l <> Fixed u :: r.
Proof.
  cbn. intros [_ H]. destruct l as [|[u|k ty u] l]; [|contradiction|].
  - repeat split; try (now left). discriminate.
  - rewrite texts_cons, tpls_cons. repeat split; [exact H|right; eexists; reflexivity|right; eexists; reflexivity|discriminate].
Qed.

Lemma keyed_shape type k l : keyed type k l -> forall key ty t, In (Hole key ty t) l -> ty = type /\ exists j, (k <= j < k + count l)%Z /\ key = arg_key j.
Proof.
  revert k. induction l as [|[u|k0 ty0 u] l IH]; intros k K key ty t H; [contradiction|..].
  - destruct H as [H|H]; [discriminate|]. cbn in K. destruct (IH _ K _ _ _ H) as (A & j & J & E). cbn [count]. eauto.
  - cbn in K. destruct K as (-> & -> & K). cbn [count]. assert (N : (0 <= count l)%Z) by (clear; induction l as [|[]]; cbn [count]; lia).
    destruct H as [H|H]; [injection H as <- <- <-; split; [reflexivity|]; exists k; split; [lia|reflexivity]|].
    destruct (IH _ K _ _ _ H) as (A & j & J & E). split; [exact A|]. exists j. split; [lia|exact E].
Qed.
Lemma count_pos l : (0 <= count l)%Z.
Proof. induction l as [|[]]; cbn [count]; lia. Qed.
Lemma keyed_nodup type k l : keyed type k l -> NoDup (hole_keys l).
Proof.
  revert k. induction l as [|[u|k0 ty0 u] l IH]; intros k K; cbn in *; [constructor|eauto|]. destruct K as (-> & -> & K).
  constructor; [|eauto]. intros I. unfold hole_keys in I. apply in_flat_map in I. destruct I as ([x|k' ty' t'] & I & J); [contradiction|].
  destruct J as [J|[]]. destruct (keyed_shape _ _ _ K _ _ _ I) as (_ & j & B & E). rewrite E in J. apply arg_key_inj in J. lia.
Qed.

Lemma second l : apart l -> forall k0, (0 <= k0)%Z -> keyed "Int" k0 l -> forall k, exists l' k', refined k l l' k' /\
  exists new, replace_all match_uuid "String" (tpls l) 0 k = (tpls l', new, k') /\
    (forall key ty, In (key, ty) (hole_args l' : list (string * typ)) <-> In (key, ty) (hole_args l) \/ In (key, ty) new).
Proof.
  pose proof (fun s d (H : match_uuid s = Some d) => match_groups_some [8; 4; 4; 4; 12] s d H) as Pre.
  induction l as [|p l IH]; intros A k0 P K k.
  - exists [], k. split; [constructor|]. exists []. split; [reflexivity|]. cbn. tauto.
  - destruct p as [t|key ty t].
    + destruct (apart_tail _ _ A) as (A' & S & _). cbn in K.
      destruct (pass match_uuid "String" Pre t k) as (c & Tc & Ac & Kc & Uc & Fc & Rc).
      destruct (IH A' k0 P K (k + count c)%Z) as (l' & k' & R & new & E & In').
      exists (c ++ l')%list, k'. split; [now apply refined_fixed|]. exists (hole_args c ++ new)%list. split.
      * rewrite tpls_cons. cbn [tpl]. rewrite rep_app; [|exact Pre|apply match_groups_slash|exact S]. rewrite Rc, E, tpls_app. reflexivity.
      * intros x y. unfold hole_args in *. rewrite flat_map_app, !in_app_iff, In'. cbn [flat_map app]. tauto.
    + cbn in A, K. destruct K as (-> & -> & K). destruct (IH A (k0 + 1)%Z ltac:(lia) K k) as (l' & k' & R & new & E & In').
      exists (Hole (arg_key k0) "Int" t :: l'), k'. split; [now constructor|]. exists new. split.
      * rewrite !tpls_cons. cbn [tpl]. change ("/" ++ expr_text (arg_key k0)) with (String "/" (expr_text (arg_key k0))).
        cbn [append replace_all]. change (Ascii.eqb "/" "/") with true. cbn iota.
        replace (match_uuid (expr_text (arg_key k0) ++ tpls l)) with (@None string) by reflexivity.
        rewrite rep_plain; [|apply no_slash, expr_text_no; [exact P|now left]]. rewrite E. reflexivity.
      * intros x y. unfold hole_args in *. cbn [flat_map app In]. rewrite In'. tauto.
Qed.

Lemma refined_texts k l l' k' : refined k l l' k' -> texts l' = texts l.
Proof.
  induction 1 as [k|k key ty t l l' k' R IH|k t c l l' k' T A K U F R IH]; [reflexivity|..].
  - rewrite !texts_cons, IH. reflexivity.
  - rewrite texts_app, texts_cons, T, IH. reflexivity.
Qed.
Lemma refined_head k l l' k' : refined k l l' k' -> (forall u r, l <> Fixed u :: r) -> forall u r, l' <> Fixed u :: r.
Proof. destruct 1 as [k|k key ty t l l' k' R|k t c l l' k' T A K U F R]; intros H u r; [discriminate|discriminate|]. now destruct (H t l). Qed.
Lemma apart_app a b : apart a -> apart b -> (forall u r, b <> Fixed u :: r) -> apart (a ++ b)%list.
Proof.
  intros A B H. induction a as [|[t|k ty t] a IH]; cbn [app apart] in *; [exact B| |now apply IH].
  destruct A as [N A]. split; [exact N|]. destruct a as [|[u|k ty u] a]; cbn [app] in *; [|contradiction|now apply IH].
  destruct b as [|[u|k ty u] b]; [exact Logic.I|now destruct (H u b)|exact B].
Qed.
Lemma refined_apart k l l' k' : refined k l l' k' -> apart l -> apart l'.
Proof.
  induction 1 as [k|k key ty t l l' k' R IH|k t c l l' k' T A K U F R IH]; intros H; [exact H|now apply IH|].
  destruct (apart_tail _ _ H) as (H' & _ & _ & Hd). apply apart_app; [exact A|now apply IH|eapply refined_head; eauto].
Qed.
Lemma refined_le k l l' k' : refined k l l' k' -> (k <= k')%Z.
Proof. induction 1 as [k|k key ty t l l' k' R IH|k t c l l' k' T A K U F R IH]; [lia|exact IH|]. pose proof (count_pos c). lia. Qed.
Lemma refined_holes k l l' k' : refined k l l' k' -> forall key ty t, In (Hole key ty t) l' ->
  In (Hole key ty t) l \/ ty = "String" /\ uuid t /\ exists j, (k <= j < k')%Z /\ key = arg_key j.
Proof.
  induction 1 as [k|k key ty t l l' k' R IH|k t c l l' k' T A K U F R IH]; intros key0 ty0 t0 I; [contradiction|..].
  - destruct I as [I|I]; [left; now left|]. destruct (IH _ _ _ I) as [J|J]; [left; now right|now right].
  - apply in_app_iff in I. pose proof (refined_le _ _ _ _ R). pose proof (count_pos c). destruct I as [I|I].
    + right. destruct (keyed_shape _ _ _ K _ _ _ I) as (-> & j & J & E). split; [reflexivity|].
      destruct (F _ _ _ I) as (b & M). split; [now apply match_uuid_some in M|]. exists j. split; [lia|exact E].
    + destruct (IH _ _ _ I) as [J|(-> & X & j & J & E)]; [left; now right|right]. split; [reflexivity|]. split; [exact X|]. exists j. split; [lia|exact E].
Qed.
Lemma hole_key_in key l : In key (hole_keys l) <-> exists ty t, In (Hole key ty t) l.
Proof.
  unfold hole_keys. rewrite in_flat_map. split.
  - intros ([u|k ty t] & I & J); [contradiction|]. destruct J as [<-|[]]. eauto.
  - intros (ty & t & I). exists (Hole key ty t). split; [exact I|now left].
Qed.
Lemma nodup_app {A} (a b : list A) : NoDup a -> NoDup b -> (forall x, In x a -> ~ In x b) -> NoDup (a ++ b)%list.
Proof.
  intros Na Nb D. induction Na as [|x a X Na IH]; [exact Nb|]. cbn. constructor.
  - intros I. apply in_app_iff in I. destruct I as [I|I]; [contradiction|]. now apply (D x (or_introl eq_refl)).
  - apply IH. intros y Y. apply D. now right.
Qed.
Lemma refined_nodup k l l' k' : refined k l l' k' -> forall k0, keyed "Int" k0 l -> (k0 + count l <= k)%Z -> NoDup (hole_keys l').
Proof.
  induction 1 as [k|k key ty t l l' k' R IH|k t c l l' k' T A K U F R IH]; intros k0 K0 B; [constructor|..].
  - cbn in K0. destruct K0 as (-> & -> & K0). cbn [count] in B. pose proof (count_pos l). unfold hole_keys. cbn [flat_map app].
    constructor; [|apply IH with (k0 + 1)%Z; [exact K0|lia]].
    intros I. apply (hole_key_in _ l') in I. destruct I as (ty & t0 & I). destruct (refined_holes _ _ _ _ R _ _ _ I) as [J|(_ & _ & j & J & E)].
    + destruct (keyed_shape _ _ _ K0 _ _ _ J) as (_ & j & Bj & E). apply arg_key_inj in E. lia.
    + apply arg_key_inj in E. lia.
  - cbn [keyed count] in *. pose proof (count_pos c). unfold hole_keys. rewrite flat_map_app. apply nodup_app.
    + eapply keyed_nodup; exact K.
    + apply IH with k0; [exact K0|lia].
    + intros x X Y. apply (hole_key_in x c) in X. apply (hole_key_in x l') in Y. destruct X as (ty & t0 & X). destruct Y as (ty' & t' & Y).
      destruct (keyed_shape _ _ _ K _ _ _ X) as (_ & j & J & ->).
      destruct (refined_holes _ _ _ _ R _ _ _ Y) as [Z|(_ & _ & i & J' & E)].
      * destruct (keyed_shape _ _ _ K0 _ _ _ Z) as (_ & i & J' & E). apply arg_key_inj in E. lia.
      * apply arg_key_inj in E. lia.
Qed.

(** A fixed text in its place. *)
Lemma fixed_place l t : In (Fixed t) l -> apart l -> exists pre post l1 l2, l = (l1 ++ Fixed t :: l2)%list /\ texts l = pre ++ t ++ post /\ post = texts l2 /\ pre = texts l1 /\ slashy post.
Proof.
  intros I A. apply in_split in I. destruct I as (l1 & l2 & ->). exists (texts l1), (texts l2), l1, l2.
  rewrite texts_app, texts_cons. repeat split.
  induction l1 as [|[u|k ty u] l1 IH]; cbn [app] in A.
  - destruct (apart_tail _ _ A) as (_ & _ & S & _). exact S.
  - destruct (apart_tail _ _ A) as (A' & _). now apply IH.
  - cbn in A. now apply IH.
Qed.
Lemma unmatched_at m l1 t l2 : unmatched m (l1 ++ Fixed t :: l2)%list -> forall a b, t = a ++ String "/" b -> m (b ++ texts l2) = None.
Proof.
  induction l1 as [|[u|k ty u] l1 IH]; cbn [app unmatched]; intros U a b E; [eapply (proj1 U); exact E|eapply IH; [apply U|exact E]|eapply IH; eauto].
Qed.
Lemma ends_word_app b r : ends_word b -> slashy r -> ends_word (b ++ r).
Proof.
  intros [-> |(c & t & -> & W)] S; [|right; exists c, (t ++ r); split; [reflexivity|exact W]]. cbn.
  destruct S as [-> |(s & ->)]; [now left|right]. exists "/"%char, s. split; [reflexivity|]. rewrite <- word_spec. discriminate.
Qed.
Lemma slashy_app a b : slashy a -> slashy b -> slashy (a ++ b).
Proof. intros [-> |(r & ->)] B; [exact B|right; eexists; reflexivity]. Qed.
Lemma refined_fixed_texts k l l' k' : refined k l l' k' -> apart l -> unmatched match_int l ->
  forall t a d b, In (Fixed t) l' -> t = a ++ "/" ++ d ++ b -> ~ (number d /\ ends_word b) /\ ~ uuid d.
Proof.
  induction 1 as [k|k key ty t l l' k' R IH|k t c l l' k' T A K U F R IH]; intros Al Ul t0 a d b I E; [contradiction|..].
  - destruct I as [I|I]; [discriminate|]. eapply IH; eauto.
  - destruct (apart_tail _ _ Al) as (Al' & _ & Sl & _). apply in_app_iff in I. destruct I as [I|I]; [|eapply IH; eauto; apply Ul].
    destruct (fixed_place c t0 I A) as (pre & post & c1 & c2 & -> & Tc & -> & -> & Sp). split.
    + intros [Nd Eb]. rewrite T in Tc. destruct Ul as [Ul _].
      specialize (Ul (texts c1 ++ a) ((d ++ b) ++ texts c2)). rewrite Tc, E in Ul.
      assert (X : match_int ((((d ++ b) ++ texts c2)) ++ texts l) = None).
      { apply Ul. rewrite !str_app_assoc. cbn [append]. rewrite ?str_app_assoc. reflexivity. }
      rewrite !str_app_assoc in X. eapply match_int_none; [exact X|reflexivity|]. split; [exact Nd|].
      apply ends_word_app; [exact Eb|]. now apply slashy_app.
    + pose proof (unmatched_at _ _ _ _ U a (d ++ b) E) as X. rewrite str_app_assoc in X. eapply match_uuid_none; [exact X|reflexivity].
Qed.

Lemma cut_path s : exists l k1 k2 new a1, replace_all match_int "Int" s 0 1 = (k1, a1, k2) /\
  (exists k3, replace_all match_uuid "String" k1 0 k2 = (tpls l, new, k3)) /\
  texts l = s /\ well_cut l /\ Forall name (hole_keys l) /\ (forall key ty, In (key, ty) (a1 ++ new)%list <-> In (key, ty) (hole_args l)) /\
  (forall key, In key (hole_keys l) -> exists j, (1 <= j)%Z /\ key = arg_key j).
Proof.
  destruct (pass match_int "Int") with (s := s) (k := 1%Z) as (l1 & T & A & K & U & F & R).
  { intros x d H. apply match_int_some in H. destruct H as (_ & b & E & _). eauto. }
  destruct (second l1 A 1%Z ltac:(lia) K (1 + count l1)%Z) as (l & k3 & Rf & new & E & In').
  pose proof (count_pos l1).
  assert (Keys : forall key, In key (hole_keys l) -> exists j, (1 <= j)%Z /\ key = arg_key j).
  { intros key I. apply hole_key_in in I. destruct I as (ty & t & I).
    destruct (refined_holes _ _ _ _ Rf _ _ _ I) as [J|(_ & _ & j & B & E')]; [|exists j; split; [lia|exact E']].
    destruct (keyed_shape _ _ _ K _ _ _ J) as (_ & j & B & E'). exists j. split; [lia|exact E']. }
  exists l, (tpls l1), (1 + count l1)%Z, new, (hole_args l1). split; [exact R|]. split; [eauto|]. split; [now rewrite (refined_texts _ _ _ _ Rf)|].
  split; [|split; [|split; [|exact Keys]]].
  - split; [eapply refined_apart; eauto|]. split; [eapply refined_nodup; eauto; lia|]. split; [|eapply refined_fixed_texts; eauto].
    intros k ty t I. destruct (refined_holes _ _ _ _ Rf _ _ _ I) as [J|(-> & X & _)]; [left|now right].
    destruct (keyed_shape _ _ _ K _ _ _ J) as (-> & _). split; [reflexivity|]. destruct (F _ _ _ J) as (b & M). now apply match_int_some in M.
  - apply Forall_forall. intros key I. destruct (Keys key I) as (j & B & ->). apply arg_key_name. lia.
  - intros key ty. rewrite in_app_iff. symmetry. apply In'.
Qed.

(** ** Decoding *)
Lemma hex_value_iff c x : hex_value c = Some x <-> hex_digit_of c x.
Proof.
  unfold hex_value. set (n := N_of_ascii c). split.
  - intros H. destruct ((48 <=? n) && (n <=? 57))%N%bool eqn:E1; [|destruct ((65 <=? n) && (n <=? 70))%N%bool eqn:E2; [|destruct ((97 <=? n) && (n <=? 102))%N%bool eqn:E3; [|discriminate]]];
      injection H as <-.
    + apply andb_true_iff in E1. rewrite !N.leb_le in E1. apply hex_09; fold n; lia.
    + apply andb_true_iff in E2. rewrite !N.leb_le in E2. apply hex_AF; fold n; lia.
    + apply andb_true_iff in E3. rewrite !N.leb_le in E3. apply hex_af; fold n; lia.
  - intros H. destruct H as [c x E B|c x E B|c x E B]; subst n; rewrite E.
    + replace ((48 <=? 48 + x) && (48 + x <=? 57))%N with true by (symmetry; apply andb_true_iff; rewrite !N.leb_le; lia). f_equal. lia.
    + replace ((48 <=? 55 + x) && (55 + x <=? 57))%N with false by (symmetry; apply andb_false_iff; rewrite !N.leb_gt; lia).
      replace ((65 <=? 55 + x) && (55 + x <=? 70))%N with true by (symmetry; apply andb_true_iff; rewrite !N.leb_le; lia). f_equal. lia.
    + replace ((48 <=? 87 + x) && (87 + x <=? 57))%N with false by (symmetry; apply andb_false_iff; rewrite !N.leb_gt; lia).
      replace ((65 <=? 87 + x) && (87 + x <=? 70))%N with false by (symmetry; apply andb_false_iff; rewrite !N.leb_gt; lia).
      replace ((97 <=? 87 + x) && (87 + x <=? 102))%N with true by (symmetry; apply andb_true_iff; rewrite !N.leb_le; lia). f_equal. lia.
Qed.
(** The three ways to go on. *)
Lemma decode_cases s : s = "" \/ (exists c t, s = String c t /\ percent_decode s = String c (percent_decode t) /\
    (forall a b r, s = String "%" (String a (String b r)) -> hex_value a = None \/ hex_value b = None)) \/
  exists a b r x y, s = String "%" (String a (String b r)) /\ hex_value a = Some x /\ hex_value b = Some y /\
    percent_decode s = String (ascii_of_N (16 * x + y)) (percent_decode r).
Proof.
  destruct s as [|c s]; [now left|right]. destruct (Ascii.eqb c "%") eqn:C.
  - apply Ascii.eqb_eq in C. subst c. destruct s as [|a [|b r]].
    1,2: left; do 2 eexists; split; [reflexivity|]; split; [reflexivity|discriminate].
    destruct (hex_value a) as [x|] eqn:X.
    2:{ left. do 2 eexists. split; [reflexivity|]. split; [cbn [percent_decode]; change (Ascii.eqb "%" "%") with true; cbn iota; now rewrite X|]. intros a' b' r' H. injection H as <- <- <-. now left. }
    destruct (hex_value b) as [y|] eqn:Y.
    2:{ left. do 2 eexists. split; [reflexivity|]. split; [cbn [percent_decode]; change (Ascii.eqb "%" "%") with true; cbn iota; now rewrite X, Y|]. intros a' b' r' H. injection H as <- <- <-. now right. }
    right. exists a, b, r, x, y. repeat split; auto. cbn [percent_decode]. change (Ascii.eqb "%" "%") with true. cbn iota. now rewrite X, Y.
  - left. exists c, s. split; [reflexivity|]. split; [cbn; now rewrite C|]. intros a b r H. injection H as -> _. discriminate.
Qed.
Lemma decode_escape a b r x y : hex_value a = Some x -> hex_value b = Some y ->
  percent_decode (String "%" (String a (String b r))) = String (ascii_of_N (16 * x + y)) (percent_decode r).
Proof. intros X Y. cbn [percent_decode]. change (Ascii.eqb "%" "%") with true. cbn iota. now rewrite X, Y. Qed.
Lemma decode_no_escape c t : (forall a b r, String c t = String "%" (String a (String b r)) -> hex_value a = None \/ hex_value b = None) ->
  percent_decode (String c t) = String c (percent_decode t).
Proof.
  intros H. destruct (decode_cases (String c t)) as [X|[(c' & t' & E & D & _)|(a & b & r & x & y & E & X & Y & _)]]; [discriminate|injection E as <- <-; exact D|].
  destruct (H _ _ _ E) as [H'|H']; congruence.
Qed.
Lemma decode_decoded_aux n : forall s, String.length s <= n -> decoded s (percent_decode s).
Proof.
  induction n as [|n IH]; intros s L; [destruct s; [constructor|cbn in L; lia]|].
  destruct (decode_cases s) as [-> |[(c & t & -> & D & N)|(a & b & r & x & y & -> & X & Y & D)]]; [constructor|..]; rewrite D.
  - cbn in L. destruct (ascii_dec c "%") as [-> |C]; [|apply decoded_char; [exact C|apply IH; lia]].
    apply decoded_stray; [|apply IH; lia]. intros a b r x y -> A B. apply hex_value_iff in A, B. destruct (N a b r eq_refl); congruence.
  - cbn in L. apply decoded_escape; [now apply hex_value_iff|now apply hex_value_iff|apply IH; lia].
Qed.
Lemma decode_decoded s : decoded s (percent_decode s).
Proof. apply (decode_decoded_aux (String.length s)). lia. Qed.
Lemma decoded_decode s t : decoded s t -> t = percent_decode s.
Proof.
  induction 1 as [|a b x y s t A B _ IH|c s t C _ IH|s t N _ IH]; [reflexivity|..].
  - apply hex_value_iff in A, B. rewrite (decode_escape _ _ _ _ _ A B), IH. reflexivity.
  - rewrite decode_no_escape, IH; [reflexivity|]. intros a b r H. injection H as -> _. congruence.
  - rewrite decode_no_escape, IH; [reflexivity|]. intros a b r H. injection H as ->.
    destruct (hex_value a) as [x|] eqn:X; [|now left]. destruct (hex_value b) as [y|] eqn:Y; [|now right].
    apply hex_value_iff in X, Y. now destruct (N _ _ _ _ _ eq_refl X Y).
Qed.
Lemma decode_slash_aux n : forall a b, String.length a <= n -> percent_decode (a ++ String "/" b) = percent_decode a ++ String "/" (percent_decode b).
Proof.
  induction n as [|n IH]; intros a b L; [destruct a; [reflexivity|cbn in L; lia]|].
  destruct (decode_cases a) as [-> |[(c & t & -> & D & N)|(x & y & r & hx & hy & -> & X & Y & D)]]; [reflexivity|..]; rewrite D; cbn in L.
  - cbn [append]. rewrite decode_no_escape; [rewrite IH by lia; reflexivity|]. intros x y r H. destruct t as [|t1 [|t2 t]].
    + injection H as _ <- _. now left.
    + injection H as _ <- <- _. now right.
    + injection H as -> <- <- _. eapply N. reflexivity.
  - cbn [append]. rewrite (decode_escape _ _ _ _ _ X Y), IH by lia. reflexivity.
Qed.
Lemma decode_slash a b : percent_decode (a ++ String "/" b) = percent_decode a ++ String "/" (percent_decode b).
Proof. apply (decode_slash_aux (String.length a)). lia. Qed.
Lemma decode_slashy a b : slashy b -> percent_decode (a ++ b) = percent_decode a ++ percent_decode b.
Proof. intros [-> |(r & ->)]; [now rewrite !str_app_nil_r|]. rewrite decode_slash. reflexivity. Qed.
Lemma decode_plain s : all (fun c => c <> "%"%char) s -> forall r, percent_decode (s ++ r) = s ++ percent_decode r.
Proof.
  induction 1 as [|c s C _ IH]; intros r; [reflexivity|]. cbn [append]. rewrite decode_no_escape, IH; [reflexivity|].
  intros a b x H. injection H as -> _. congruence.
Qed.
Lemma decode_set_path_aux n : forall s, String.length s <= n -> percent_decode (set_path s) = percent_decode s.
Proof.
  induction n as [|n IH]; intros s L; [destruct s; [reflexivity|cbn in L; lia]|].
  destruct (decode_cases s) as [-> |[(c & t & -> & D & N)|(a & b & r & x & y & -> & X & Y & D)]]; [reflexivity|..]; cbn in L; rewrite D.
  - cbn [set_path]. destruct (Ascii.eqb c "{") eqn:C1; [|destruct (Ascii.eqb c "}") eqn:C2].
    + apply Ascii.eqb_eq in C1. subst c. cbn [append]. rewrite (decode_escape "7" "B" _ 7 11 eq_refl eq_refl), IH by lia. reflexivity.
    + apply Ascii.eqb_eq in C2. subst c. cbn [append]. rewrite (decode_escape "7" "D" _ 7 13 eq_refl eq_refl), IH by lia. reflexivity.
    + rewrite decode_no_escape; [rewrite IH by lia; reflexivity|]. intros a b r H. injection H as -> H.
      destruct t as [|t1 t]; [discriminate|]. cbn [set_path] in H.
      destruct (Ascii.eqb t1 "{") eqn:B1; [injection H as <- _; now left|]. destruct (Ascii.eqb t1 "}") eqn:B2; [injection H as <- _; now left|].
      injection H as <- H. destruct t as [|t2 t]; [discriminate|]. cbn [set_path] in H.
      destruct (Ascii.eqb t2 "{") eqn:B3; [injection H as <- _; now right|]. destruct (Ascii.eqb t2 "}") eqn:B4; [injection H as <- _; now right|].
      injection H as <- H. eapply N. reflexivity.
  - assert (Hx : forall c z, hex_value c = Some z -> Ascii.eqb c "{" = false /\ Ascii.eqb c "}" = false).
    { intros c z H. split; apply Ascii.eqb_neq; intros ->; discriminate. }
    cbn [set_path]. change (Ascii.eqb "%" "{") with false. change (Ascii.eqb "%" "}") with false. cbn iota.
    destruct (Hx _ _ X) as [-> ->]. destruct (Hx _ _ Y) as [-> ->]. rewrite (decode_escape _ _ _ _ _ X Y), IH by lia. reflexivity.
Qed.
Lemma decode_set_path s : percent_decode (set_path s) = percent_decode s.
Proof. apply (decode_set_path_aux (String.length s)). lia. Qed.

(** ** The address *)
Definition dtpl (p : piece) : string := match p with Fixed t => percent_decode t | Hole k _ _ => "/{{.args." ++ k ++ "}}" end.
Definition dtext (p : piece) : string := match p with Fixed t => percent_decode t | Hole _ _ t => "/" ++ t end.
Definition keys_ok (l : list piece) : Prop := forall key, In key (hole_keys l) -> exists j, (1 <= j)%Z /\ key = arg_key j.
Lemma keys_ok_tail p l : keys_ok (p :: l) -> keys_ok l.
Proof. intros H key I. apply H. unfold hole_keys in *. cbn [flat_map]. apply in_app_iff. now right. Qed.
Lemma decode_tpls l : apart l -> keys_ok l -> percent_decode (tpls l) = joined (map dtpl l).
Proof.
  induction l as [|p l IH]; intros A K; [reflexivity|]. rewrite tpls_cons. cbn [map]. unfold joined. rewrite concat_nil_cons.
  change (String.concat "" (map dtpl l)) with (joined (map dtpl l)). pose proof (keys_ok_tail _ _ K) as K'. destruct p as [t|k ty t].
  - destruct (apart_tail _ _ A) as (A' & S & _). cbn [tpl dtpl]. rewrite decode_slashy by exact S. now rewrite IH.
  - cbn in A. cbn [tpl dtpl]. destruct (K k) as (j & J & ->); [now left|]. rewrite decode_plain.
    + rewrite IH by auto. reflexivity.
    + cbn. apply all_cons; [discriminate|]. apply expr_text_no; [lia|now right].
Qed.
Lemma number_plain t : number t -> all (fun c => c <> "%"%char) t.
Proof. intros [_ H]. eapply all_impl; [|exact H]. intros c C ->. unfold digit in C. cbn in C. lia. Qed.
Lemma uuid_plain t : uuid t -> all (fun c => c <> "%"%char) t.
Proof.
  intros (a & b & c & d & e & -> & _ & A & B & C & D & E).
  assert (H : forall s, all lower_hex s -> all (fun c => c <> "%"%char) s).
  { intros s. apply all_impl. intros x X ->. destruct X as [X|X]; [unfold digit in X|]; cbn in X; lia. }
  rewrite !all_app. repeat split; auto; apply all_cons; try discriminate; apply all_nil.
Qed.
Definition holes_typed (l : list piece) : Prop := forall k ty t, In (Hole k ty t) l -> ty = "Int" /\ number t \/ ty = "String" /\ uuid t.
Lemma decode_texts l : apart l -> holes_typed l -> percent_decode (texts l) = joined (map dtext l).
Proof.
  induction l as [|p l IH]; intros A K; [reflexivity|]. rewrite texts_cons. cbn [map]. unfold joined. rewrite concat_nil_cons.
  change (String.concat "" (map dtext l)) with (joined (map dtext l)). assert (K' : holes_typed l) by (intros k ty t I; eapply K; right; exact I).
  destruct p as [t|k ty t].
  - destruct (apart_tail _ _ A) as (A' & _ & S & _). cbn [piece_text dtext]. rewrite decode_slashy by exact S. now rewrite IH.
  - cbn in A. cbn [piece_text dtext]. rewrite decode_plain; [now rewrite IH|]. cbn. apply all_cons; [discriminate|].
    destruct (K k ty t (or_introl eq_refl)) as [(_ & N)|(_ & U)]; [now apply number_plain|now apply uuid_plain].
Qed.

Definition hole_vals (l : list piece) : list (string * string) :=
  flat_map (fun p => match p with Hole k _ t => [(k, t)] | _ => [] end) l.
Lemma hole_vals_keys l : map fst (hole_vals l) = hole_keys l.
Proof. induction l as [|[t|k ty t] l IH]; cbn; [reflexivity|exact IH|now f_equal]. Qed.

Lemma contains_app c a b : contains c (a ++ b) <-> contains c a \/ contains c b.
Proof.
  split.
  - revert b. induction a as [|d a IH]; intros b (x & y & E); [right; exists x, y; exact E|].
    destruct x as [|e x]; injection E as -> E; [left; exists "", a; reflexivity|].
    destruct (IH b) as [(u & v & ->)|H]; [exists x, y; exact E|left; exists (String e u), v; reflexivity|now right].
  - intros [(x & y & ->)|(x & y & ->)]; [exists x, (y ++ b); now rewrite str_app_assoc|exists (a ++ x), y; now rewrite str_app_assoc].
Qed.
Lemma no_brace_braceless s : ~ contains "{" s -> braceless (s ++ "{").
Proof.
  intros N a b E. revert a E. induction s as [|c s IH]; intros a E.
  - destruct a as [|? a]; [discriminate|]. cbn in E. injection E as _ E. destruct a; discriminate.
  - destruct a as [|d a]; cbn in E; [injection E as -> _; apply N; exists "", s; reflexivity|].
    injection E as <- E. eapply IH; [|exact E]. intros (x & y & ->). apply N. exists (String c x), y. reflexivity.
Qed.
Lemma no_brace_plain s : ~ contains "{" s -> braceless s.
Proof. intros N a b ->. apply N. exists a, (String "{" b). reflexivity. Qed.
Lemma written_arg k : name k -> written_expr ["args"; k] ("{{.args." ++ k ++ "}}").
Proof.
  intros N. pose proof (WE_dot ["args"; k] ("args." ++ k)) as W.
  assert (P : written_path ["args"; k] ("args." ++ k)).
  { pose proof (WP_more "args" "" "" [k] k) as X. cbn in X. apply X; [apply Name; [reflexivity|repeat (apply WC_cons; [reflexivity|]); apply WC_nil]|constructor|constructor|].
    pose proof (WP_one k "" "") as Y. cbn in Y. rewrite str_app_nil_r in Y. apply Y; [exact N|constructor|constructor]. }
  specialize (W P). cbn [append] in W |- *. exact W.
Qed.

Lemma template_segments f l : Forall name (hole_keys l) -> (forall k ty t, In (Hole k ty t) l -> f ["args"; k] = Some t) ->
  forall acc, ~ contains "{" (acc ++ joined (map dtext l)) -> ~ contains """" (acc ++ joined (map dtext l)) ->
  exists segs, written segs (acc ++ joined (map dtpl l)) /\ ~ In (Literal """") segs /\ rendered f segs (acc ++ joined (map dtext l)).
Proof.
  induction l as [|p l IH]; intros Nm F acc B Q.
  - cbn in *. rewrite str_app_nil_r in *. destruct (string_dec acc "") as [-> |Ne]; [exists []; split; [constructor|]; split; [intros []|constructor]|].
    exists [Literal acc]. split; [apply W_text; [exact Ne|now apply no_brace_plain]|]. split.
    + intros [H|[]]. injection H as ->. apply Q. exists "", "". reflexivity.
    + pose proof (R_text f acc [] "" (R_nil f)) as R. rewrite str_app_nil_r in R. exact R.
  - cbn [map] in *. unfold joined in *. rewrite concat_nil_cons in B, Q. rewrite !concat_nil_cons. fold (joined (map dtext l)) in *. fold (joined (map dtpl l)) in *.
    assert (F' : forall k ty t, In (Hole k ty t) l -> f ["args"; k] = Some t) by (intros; eapply F; right; eauto).
    destruct p as [t|k ty t]; cbn [dtext dtpl] in *.
    + rewrite <- !str_app_assoc in *. apply IH; [exact Nm|exact F'|exact B|exact Q].
    + inversion Nm as [|? ? Nk Nl]; subst. destruct (IH Nl F' "") as (segs & W & NQ & R).
      { intros C. apply B. rewrite !contains_app. right. right. exact C. }
      { intros C. apply Q. rewrite !contains_app. right. right. exact C. }
      exists (Literal (acc ++ "/") :: Expression ["args"; k] :: segs). split; [|split].
      * replace (acc ++ ("/{{.args." ++ k ++ "}}") ++ joined (map dtpl l)) with ((acc ++ "/") ++ ("{{.args." ++ k ++ "}}") ++ joined (map dtpl l)).
        -- apply W_text_expr; [destruct acc; discriminate|apply no_brace_braceless|now apply written_arg|exact W].
           intros C. apply contains_app in C. apply B. rewrite !contains_app. destruct C as [C|C]; [now left|right; left; now left].
        -- rewrite !str_app_assoc. reflexivity.
      * intros [H|[H|H]]; [|discriminate|contradiction]. injection H as H. apply Q. apply contains_app.
        destruct acc as [|c [|c' acc]]; try discriminate.
      * assert (E : acc ++ ("/" ++ t) ++ joined (map dtext l) = (acc ++ "/") ++ t ++ joined (map dtext l)) by (rewrite !str_app_assoc; reflexivity).
        rewrite E.
        apply R_text. apply R_present; [eapply F; now left|exact R].
Qed.

(** ** Arguments *)
Lemma insert_args_get l : forall acc k t, (forall t', In (k, t') l -> t' = t) -> In (k, t) l -> aget k (insert_args l acc) = Some (arg_of t).
Proof.
  assert (G : forall l acc k, ~ In k (map fst l) -> aget k (insert_args l acc) = aget k acc).
  { induction l0 as [|[a b] l0 IH]; intros acc k N; [reflexivity|]. cbn in N. unfold insert_args in *. cbn [fold_left fst snd].
    rewrite IH by tauto. apply aget_aset_other. intros ->. tauto. }
  assert (G' : forall l acc k t, (forall t', In (k, t') l -> t' = t) -> In k (map fst l) \/ aget k acc = Some (arg_of t) ->
    aget k (insert_args l acc) = Some (arg_of t)).
  { induction l0 as [|[a b] l0 IH]; intros acc k t U H; [destruct H as [[]|H]; exact H|]. unfold insert_args in *. cbn [fold_left fst snd].
    apply IH; [intros t' I; apply U; now right|]. destruct (string_dec a k) as [->|N].
    - right. rewrite aget_aset_same. rewrite (U b) by now left. reflexivity.
    - destruct H as [[H|H]|H]; [cbn in H; congruence|now left|right]. rewrite aget_aset_other by congruence. exact H. }
  intros acc k t U I. apply G'; [exact U|left]. apply in_map_iff. exists (k, t). auto.
Qed.
Lemma insert_args_some l : forall acc k, In k (map fst l) \/ aget k acc <> None -> aget k (insert_args l acc) <> None.
Proof.
  induction l as [|[a b] l IH]; intros acc k H; [destruct H as [[]|H]; exact H|]. unfold insert_args in *. cbn [fold_left fst snd].
  apply IH. destruct H as [[<-|H]|H]; [right; rewrite aget_aset_same; discriminate|now left|right].
  destruct (string_dec k a) as [->|N]; [rewrite aget_aset_same; discriminate|]. now rewrite aget_aset_other by congruence.
Qed.
Lemma hole_args_in k ty l : In (k, ty) (hole_args l) <-> exists n t, ty = TNamed n true /\ In (Hole k n t) l.
Proof.
  unfold hole_args. rewrite in_flat_map. split.
  - intros ([u|k' ty' t] & I & J); [contradiction|]. destruct J as [J|[]]. injection J as <- <-. eauto.
  - intros (n & t & -> & I). exists (Hole k n t). split; [exact I|now left].
Qed.
Lemma hole_unique l k ty t ty' t' : NoDup (hole_keys l) -> In (Hole k ty t) l -> In (Hole k ty' t') l -> ty = ty' /\ t = t'.
Proof.
  induction l as [|[u|k0 ty0 t0] l IH]; intros N I J; [contradiction|..].
  - destruct I as [I|I]; [discriminate|]. destruct J as [J|J]; [discriminate|]. now apply IH.
  - unfold hole_keys in N. cbn [flat_map app] in N. inversion N as [|? ? X N']; subst.
    destruct I as [I|I]; destruct J as [J|J].
    + injection I as -> -> ->. injection J as -> ->. auto.
    + injection I as -> -> ->. destruct X. apply hole_key_in. eauto.
    + injection J as -> -> ->. destruct X. apply hole_key_in. eauto.
    + now apply IH.
Qed.

Lemma nodup_map_inj {A B} (f : A -> B) l x y : NoDup (map f l) -> In x l -> In y l -> f x = f y -> x = y.
Proof.
  induction l as [|z l IH]; intros N X Y E; [contradiction|]. inversion N as [|? ? Z N']; subst. destruct X as [<-|X]; destruct Y as [<-|Y]; [reflexivity|..|now apply IH].
  - destruct Z. rewrite E. now apply in_map.
  - destruct Z. rewrite <- E. now apply in_map.
Qed.
Section Directive.
  Variables (is_f64 is_utf8 : string -> bool) (camel : string -> string).
  Local Notation directive := (generate_http_directive is_f64 is_utf8 camel).
  Local Notation params := (get_query_params is_f64).

  (** *** The query *)
  Lemma mark_keys k l : map qi_key (mark_list k l) = map qi_key l.
  Proof. induction l as [|q l IH]; [reflexivity|]. cbn. destruct (String.eqb (qi_key q) k); [reflexivity|]. cbn. now rewrite IH. Qed.
  Lemma seen_spec k l : existsb (fun q => String.eqb (qi_key q) k) l = true <-> In k (map qi_key l).
  Proof.
    rewrite existsb_exists, in_map_iff. split; intros (q & A & B).
    - apply String.eqb_eq in B. eauto.
    - exists q. split; [exact B|]. now apply String.eqb_eq.
  Qed.
  Lemma filter_filter {A} (f g : A -> bool) l : filter f (filter g l) = filter (fun x => g x && f x) l.
  Proof. induction l as [|x l IH]; [reflexivity|]. cbn. destruct (g x); cbn; [destruct (f x); now rewrite IH|exact IH]. Qed.
  Lemma params_keys l : forall acc, map qi_key (fold_left (add_param is_f64) l acc) =
    (map qi_key acc ++ filter (fun x => negb (smem x (map qi_key acc))) (first_seen (map fst l)))%list.
  Proof.
    induction l as [|[k v] l IH]; intros acc; [cbn; now rewrite app_nil_r|]. cbn [fold_left map fst first_seen]. rewrite IH. unfold add_param.
    destruct (existsb (fun q => String.eqb (qi_key q) k) acc) eqn:S.
    - apply seen_spec in S. rewrite mark_keys. f_equal. cbn [filter]. assert (M : smem k (map qi_key acc) = true) by now apply smem_In.
      rewrite M. cbn [negb]. rewrite filter_filter. apply filter_ext. intros x. destruct (String.eqb x k) eqn:E; [|reflexivity].
      apply String.eqb_eq in E. subst. rewrite M. reflexivity.
    - assert (M : smem k (map qi_key acc) = false) by (apply smem_false; intros I; apply seen_spec in I; congruence).
      rewrite map_app, <- app_assoc. cbn [map qi_key app filter]. rewrite M. cbn [negb]. do 2 f_equal. rewrite filter_filter. apply filter_ext.
      intros x. cut (smem x (map qi_key acc ++ [k])%list = String.eqb x k || smem x (map qi_key acc)).
      { intros ->. destruct (String.eqb x k), (smem x (map qi_key acc)); reflexivity. }
      destruct (String.eqb x k) eqn:E; cbn [orb].
      + apply String.eqb_eq in E. subst. apply smem_In. apply in_or_app. right. now left.
      + destruct (smem x (map qi_key acc)) eqn:X; [apply smem_In; apply in_or_app; left; now apply smem_In|].
        apply smem_false. apply smem_false in X. intros I. apply in_app_or in I. destruct I as [I|[I|[]]]; [contradiction|].
        subst. now rewrite String.eqb_refl in E.
  Qed.
  Lemma params_first u : map qi_key (params u) = first_seen (map fst (su_query u)).
  Proof.
    unfold get_query_params. rewrite params_keys. cbn [map app]. induction (first_seen (map fst (su_query u))) as [|x l IH]; [reflexivity|].
    cbn. f_equal. exact IH.
  Qed.
  Lemma first_seen_in k l : In k (first_seen l) <-> In k l.
  Proof.
    induction l as [|x l IH]; [reflexivity|]. cbn [first_seen In]. rewrite filter_In, IH. split; [tauto|]. intros [H|H]; [now left|].
    destruct (string_dec x k) as [->|N]; [now left|right]. split; [exact H|]. apply negb_true_iff, String.eqb_neq. congruence.
  Qed.
  Lemma first_seen_nodup l : NoDup (first_seen l).
  Proof.
    induction l as [|x l IH]; [constructor|]. cbn. constructor; [|now apply NoDup_filter].
    intros I. apply filter_In in I. destruct I as [_ I]. now rewrite String.eqb_refl in I.
  Qed.
  Lemma first_seen_id l : NoDup l -> first_seen l = l.
  Proof.
    induction 1 as [|x l X N IH]; [reflexivity|]. cbn. rewrite IH. f_equal. clear -X. induction l as [|y l IH]; [reflexivity|]. cbn.
    cbn in X. destruct (String.eqb y x) eqn:E; [apply String.eqb_eq in E; tauto|]. cbn. rewrite IH; tauto.
  Qed.

  (** What is known about a key after some pairs. *)
  Definition entry (k : string) (l : list query_info) : option query_info := find (fun q => String.eqb (qi_key q) k) l.
  Definition marked (q : query_info) : query_info := {| qi_key := qi_key q; qi_type := qi_type q; qi_list := true |}.
  Lemma entry_mark k k' l : entry k (mark_list k' l) = if String.eqb k' k then option_map marked (entry k l) else entry k l.
  Proof.
    unfold entry. induction l as [|q l IH]; [cbn; destruct (String.eqb k' k); reflexivity|]. cbn [mark_list find].
    destruct (String.eqb (qi_key q) k') eqn:E.
    - apply String.eqb_eq in E. subst k'. cbn [find qi_key]. destruct (String.eqb (qi_key q) k); reflexivity.
    - cbn [find]. rewrite IH. destruct (String.eqb (qi_key q) k) eqn:E2; [|reflexivity].
      apply String.eqb_eq in E2. subst k. rewrite String.eqb_sym, E. reflexivity.
  Qed.
  Lemma entry_app k l q : entry k (l ++ [q])%list = match entry k l with Some x => Some x | None => if String.eqb (qi_key q) k then Some q else None end.
  Proof. unfold entry. induction l as [|x l IH]; cbn; [reflexivity|]. destruct (String.eqb (qi_key x) k); [reflexivity|exact IH]. Qed.
  Lemma entry_none k l : entry k l = None <-> ~ In k (map qi_key l).
  Proof.
    unfold entry. induction l as [|x l IH]; cbn; [tauto|]. destruct (String.eqb (qi_key x) k) eqn:E.
    - apply String.eqb_eq in E. split; [discriminate|]. tauto.
    - apply String.eqb_neq in E. tauto.
  Qed.
  Definition fresh_param (k v : string) : query_info := {| qi_key := k; qi_type := detect_gql_data_type is_f64 v; qi_list := has_comma v |}.
  Lemma entry_add k acc k' v : entry k (add_param is_f64 acc (k', v)) =
    if String.eqb k' k then Some (match entry k acc with Some q => marked q | None => fresh_param k v end) else entry k acc.
  Proof.
    unfold add_param. destruct (existsb (fun q => String.eqb (qi_key q) k') acc) eqn:S.
    - rewrite entry_mark. destruct (String.eqb k' k) eqn:E; [|reflexivity]. apply String.eqb_eq in E. subst k'.
      destruct (entry k acc) eqn:En; [reflexivity|]. apply entry_none in En. apply seen_spec in S. contradiction.
    - rewrite entry_app. cbn [qi_key]. destruct (String.eqb k' k) eqn:E; [|destruct (entry k acc); reflexivity]. apply String.eqb_eq in E. subst k'.
      assert (En : entry k acc = None) by (apply entry_none; intros I; apply seen_spec in I; congruence). now rewrite En.
  Qed.
  Definition given (k : string) (l : list (string * string)) : bool := existsb (fun kv => String.eqb (fst kv) k) l.
  Lemma entry_after k l : forall acc q, entry k acc = Some q ->
    entry k (fold_left (add_param is_f64) l acc) = Some (if given k l then marked q else q).
  Proof.
    induction l as [|[k' v] l IH]; intros acc q E; [exact E|]. cbn [fold_left given existsb fst].
    destruct (String.eqb k' k) eqn:K.
    - rewrite (IH _ (marked q)); [cbn [orb]; destruct (given k l); reflexivity|]. rewrite entry_add, K, E. reflexivity.
    - cbn [orb]. apply IH. rewrite entry_add, K. exact E.
  Qed.
  Lemma entry_first k l v : first_value k l v -> forall acc, entry k acc = None ->
    exists b, entry k (fold_left (add_param is_f64) l acc) = Some (if b : bool then marked (fresh_param k v) else fresh_param k v) /\
      (b = true <-> repeated k l).
  Proof.
    induction 1 as [v l|k' v' l v N _ IH]; intros acc E; cbn [fold_left].
    - exists (given k l). split; [apply entry_after; rewrite entry_add, String.eqb_refl, E; reflexivity|].
      unfold given. rewrite existsb_exists. split.
      + intros ([k' w] & I & K). apply String.eqb_eq in K. cbn in K. subst k'. apply in_split in I. destruct I as (b & c & ->).
        exists [], v, b, w, c. reflexivity.
      + intros (a & v1 & b & w & c & H). destruct a as [|p a]; injection H as H1 H2.
        * exists (k, w). rewrite H2. split; [apply in_or_app; right; now left|apply String.eqb_refl].
        * exists (k, w). rewrite H2. split; [apply in_or_app; right; right; apply in_or_app; right; now left|apply String.eqb_refl].
    - destruct (IH (add_param is_f64 acc (k', v'))) as (b & B & R); [rewrite entry_add; apply String.eqb_neq in N; now rewrite N|].
      exists b. split; [exact B|]. rewrite R. split; intros (a & v1 & b' & w & c & H).
      + exists ((k', v') :: a)%list, v1, b', w, c. rewrite H. reflexivity.
      + destruct a as [|p a]; injection H as H1 H2; [congruence|]. exists a, v1, b', w, c. exact H2.
  Qed.
  Lemma entry_in k l q : entry k l = Some q -> In q l /\ qi_key q = k.
  Proof. intros H. apply find_some in H. destruct H as [I E]. apply String.eqb_eq in E. auto. Qed.

  (** *** The whole directive *)
  Lemma tpls_starts l r : apart l -> texts l = String "/" r -> exists r', tpls l = String "/" r'.
  Proof.
    destruct l as [|[t|k ty t] l]; intros A E; [discriminate|..].
    - destruct A as [N _]. rewrite texts_cons in E. rewrite tpls_cons. cbn [piece_text tpl] in *. destruct t as [|c t]; [congruence|].
      injection E as -> _. eexists. reflexivity.
    - rewrite tpls_cons. eexists. reflexivity.
  Qed.
  Definition all_args (u : sample_url) (l : list piece) (args : list (string * arg)) : Prop :=
    exists a, (forall k ty, In (k, ty) a <-> In (k, ty) (hole_args l)) /\
      args = insert_args (a ++ map (fun q => (camel (qi_key q), query_type q)) (params u))%list [].
  Lemma directive_address u h args r : directive u = Some (h, args) -> su_path u = String "/" r ->
    exists l, texts l = su_path u /\ well_cut l /\ Forall name (hole_keys l) /\ keys_ok l /\
      gh_url h = percent_decode (su_base u) ++ joined (map dtpl l) /\ is_utf8 (gh_url h) = true /\
      gh_query h = map (fun q => (qi_key q, expr_text (camel (qi_key q)))) (params u) /\ gh_method h = "GET" /\ gh_body h = None /\
      all_args u l args.
  Proof.
    unfold generate_http_directive, path_variables. intros D E.
    destruct (cut_path (su_path u)) as (l & k1 & k2 & new & a1 & R1 & (k3 & R2) & T & W & Nm & Ar & K). rewrite R1, R2 in D.
    destruct (is_utf8 (percent_decode (su_base u ++ set_path (tpls l)))) eqn:U; [|discriminate]. cbn [query_variables] in D. unfold query_variables in D.
    injection D as <- <-. exists l. split; [exact T|]. split; [exact W|]. split; [exact Nm|]. split; [exact K|]. cbn [gh_url gh_query gh_method gh_body].
    assert (X : percent_decode (su_base u ++ set_path (tpls l)) = percent_decode (su_base u) ++ joined (map dtpl l)).
    { rewrite E in T. destruct (tpls_starts _ _ (proj1 W) T) as (r' & Tp). rewrite decode_slashy.
      - rewrite decode_set_path, decode_tpls; [reflexivity|apply W|exact K].
      - right. rewrite Tp. cbn [set_path]. change (Ascii.eqb "/" "{") with false. change (Ascii.eqb "/" "}") with false. cbn iota. eexists. reflexivity. }
    rewrite X in *. repeat split; auto. exists (a1 ++ new)%list. split; [exact Ar|reflexivity].
  Qed.

  Lemma dtpl_written l : Forall2 piece_written l (map dtpl l).
  Proof. induction l as [|[t|k ty t] l IH]; cbn; constructor; auto; constructor. apply decode_decoded. Qed.
  Lemma path_types u h args r : directive u = Some (h, args) -> su_path u = String "/" r ->
    exists l base texts', joined (map piece_text l) = su_path u /\ well_cut l /\ decoded (su_base u) base /\
      Forall2 piece_written l texts' /\ gh_url h = base ++ joined texts' /\
      forall k ty t, In (Hole k ty t) l -> (forall q, In q (map fst (su_query u)) -> camel q <> k) -> aget k args = Some (arg_of (TNamed ty true)).
  Proof.
    intros D E. destruct (directive_address _ _ _ _ D E) as (l & T & W & _ & _ & U & _ & _ & _ & _ & a & Ar & ->).
    exists l, (percent_decode (su_base u)), (map dtpl l). split; [exact T|]. split; [exact W|]. split; [apply decode_decoded|].
    split; [apply dtpl_written|]. split; [exact U|]. intros k ty t I N. apply insert_args_get.
    - intros t' J. apply in_app_or in J. destruct J as [J|J].
      + apply Ar, hole_args_in in J. destruct J as (n & t0 & -> & J). destruct (hole_unique l k ty t n t0) as [-> _]; auto. apply W.
      + apply in_map_iff in J. destruct J as (q & J & Q). injection J as J _. destruct (N (qi_key q)); [|exact J].
        apply first_seen_in. rewrite <- params_first. now apply in_map.
    - apply in_or_app. left. apply Ar, hole_args_in. eauto.
  Qed.

  (** *** The query *)
  Lemma query_types u h args r : directive u = Some (h, args) -> su_path u = String "/" r ->
    gh_query h = map (fun k => (k, "{{.args." ++ camel k ++ "}}")) (first_seen (map fst (su_query u))) /\
    forall k v, first_value k (su_query u) v ->
      (forall q, In q (map fst (su_query u)) -> camel q = camel k -> q = k) -> (forall t, camel k <> "GEN__" ++ t) ->
      exists b, aget (camel k) args = Some (arg_of (if b : bool then TList (TNamed (detect_gql_data_type is_f64 v) false) false else TNamed (detect_gql_data_type is_f64 v) false)) /\
        (b = true <-> repeated k (su_query u) \/ contains "," v).
  Proof.
    intros D E. destruct (directive_address _ _ _ _ D E) as (l & T & W & _ & K & _ & _ & Q & _ & _ & a & Ar & ->). split.
    - rewrite Q, <- params_first, map_map. reflexivity.
    - intros k v F Inj G. destruct (entry_first k _ v F []) as (b & B & R); [reflexivity|]. fold (params u) in B.
      assert (HC : forall s, has_comma s = true <-> contains "," s).
      { induction s as [|c s IH]; [split; [discriminate|intros ([|] & y & X); discriminate]|]. cbn. rewrite orb_true_iff, IH. split.
        - intros [H|(x & y & ->)]; [apply Ascii.eqb_eq in H; subst; exists "", s; reflexivity|exists (String c x), y; reflexivity].
        - intros (x & y & H). destruct x as [|x0 x]; injection H as -> ->; [left; reflexivity|right; exists x, y; reflexivity]. }
      exists (b || has_comma v)%bool. split; [|rewrite orb_true_iff, R, HC; reflexivity].
      apply entry_in in B. destruct B as [B Bk]. apply insert_args_get.
      + intros t J. apply in_app_or in J. destruct J as [J|J].
        * apply Ar, hole_args_in in J. destruct J as (n & t0 & _ & J). destruct (K (camel k)) as (j & _ & X); [apply hole_key_in; eauto|].
          destruct (G (Z_to_string j)). exact X.
        * apply in_map_iff in J. destruct J as (q & J & Iq). injection J as J <-.
          assert (X : qi_key q = k). { apply Inj; [|exact J]. apply first_seen_in. rewrite <- params_first. now apply in_map. }
          assert (Y : q = if b then marked (fresh_param k v) else fresh_param k v).
          { apply (nodup_map_inj qi_key (params u)); [rewrite params_first; apply first_seen_nodup|exact Iq|exact B|now rewrite Bk]. }
          rewrite Y. unfold query_type. destruct b; cbn; [reflexivity|]. destruct (has_comma v); reflexivity.
      + apply in_or_app. right. apply in_map_iff. eexists. split; [|exact B]. f_equal; [now rewrite Bk|].
        unfold query_type. destruct b; cbn; [reflexivity|]. destruct (has_comma v); reflexivity.
  Qed.

  (** *** The request comes back *)
  Lemma hole_vals_in k t l : In (k, t) (hole_vals l) <-> exists ty, In (Hole k ty t) l.
  Proof.
    unfold hole_vals. rewrite in_flat_map. split.
    - intros ([u|k' ty' t'] & I & J); [contradiction|]. destruct J as [J|[]]. injection J as <- <-. eauto.
    - intros (ty & I). exists (Hole k ty t). split; [exact I|now left].
  Qed.
  Lemma dtext_decoded l : apart l -> holes_typed l -> forall path, decoded (texts l) path -> joined (map dtext l) = path.
  Proof. intros A H path D. apply decoded_decode in D. rewrite D. symmetry. now apply decode_texts. Qed.
  Lemma comes_back u h args r base path : directive u = Some (h, args) -> su_path u = String "/" r ->
    decoded (su_base u) base -> decoded (su_path u) path ->
    ~ contains "{" (base ++ path) -> ~ contains """" (base ++ path) ->
    NoDup (map fst (su_query u)) ->
    (forall k, In k (map fst (su_query u)) -> name (camel k) /\ forall t, camel k <> "GEN__" ++ t) ->
    (forall k k', In k (map fst (su_query u)) -> In k' (map fst (su_query u)) -> camel k = camel k' -> k = k') ->
    exists vals, (forall k, In k (map fst vals) -> aget k args <> None) /\
      render (values vals) (parse (gh_url h)) = base ++ path /\
      map (fun kv => (fst kv, render (values vals) (parse (snd kv)))) (gh_query h) = su_query u.
  Proof.
    intros D E Db Dp NB NQ Nd Nm Inj. destruct (directive_address _ _ _ _ D E) as (l & T & W & Nl & K & U & _ & Q & _ & _ & a & Ar & ->).
    apply decoded_decode in Db. subst base. destruct W as (A & Nk & Ht & _). rewrite <- T in Dp. rewrite <- (dtext_decoded l A Ht path Dp) in *.
    set (vals := (hole_vals l ++ map (fun kv => (camel (fst kv), snd kv)) (su_query u))%list).
    assert (Kv : map fst vals = (hole_keys l ++ map camel (map fst (su_query u)))%list).
    { unfold vals. rewrite map_app, hole_vals_keys, !map_map. reflexivity. }
    assert (Nv : NoDup (map fst vals)).
    { rewrite Kv. apply nodup_app; [exact Nk| |].
      - clear -Nd Inj. induction (map fst (su_query u)) as [|x m IH]; [constructor|]. inversion Nd as [|? ? X N']; subst. cbn. constructor.
        + intros I. apply in_map_iff in I. destruct I as (y & Y & I). apply X. rewrite (Inj x y); [exact I|now left|now right|now symmetry].
        + apply IH; [exact N'|]. intros k k' I J. apply Inj; now right.
      - intros x X Y. apply in_map_iff in Y. destruct Y as (q & <- & Y). destruct (K _ X) as (j & _ & X').
        destruct (Nm q Y) as [_ G]. now apply (G (Z_to_string j)). }
    assert (Gv : forall k t, In (k, t) vals -> values vals ["args"; k] = Some t).
    { intros k t I. cbn. now apply NoDup_aget. }
    exists vals. split; [|split].
    - intros k I. rewrite Kv in I. apply insert_args_some. left. rewrite map_app. apply in_or_app. apply in_app_or in I. destruct I as [I|I].
      + left. apply hole_key_in in I. destruct I as (ty & t & I). apply in_map_iff. exists (k, TNamed ty true). split; [reflexivity|]. apply Ar, hole_args_in. eauto.
      + right. rewrite map_map. cbn [fst]. apply in_map_iff in I. destruct I as (q & <- & I). rewrite <- map_map with (f := qi_key) (g := camel).
        apply in_map. rewrite params_first. now apply first_seen_in.
    - destruct (template_segments (values vals) l Nl) with (acc := percent_decode (su_base u)) as (segs & Ws & Ns & Rs); [|exact NB|exact NQ|].
      + intros k ty t I. apply Gv. apply in_or_app. left. apply hole_vals_in. eauto.
      + rewrite U. apply (render_parse _ _ _ Ws Ns). exact Rs.
    - rewrite Q. rewrite map_map. cbn [fst snd].
      assert (P : forall k v, In (k, v) (su_query u) -> render (values vals) (parse (expr_text (camel k))) = v).
      { intros k v I. apply (render_parse (values vals) [Expression ["args"; camel k]]).
        - pose proof (W_expr ["args"; camel k] ("{{.args." ++ camel k ++ "}}") [] "") as X. rewrite str_app_nil_r in X. apply X; [|constructor].
          apply written_arg. apply Nm. apply in_map_iff. exists (k, v). auto.
        - intros [H|[]]. discriminate.
        - pose proof (R_present (values vals) ["args"; camel k] v [] "") as X. rewrite str_app_nil_r in X. apply X; [|constructor].
          apply Gv. apply in_or_app. right. apply in_map_iff. exists (k, v). auto. }
      rewrite <- map_map with (f := qi_key) (g := fun k => (k, render (values vals) (parse (expr_text (camel k))))).
      rewrite params_first, first_seen_id by exact Nd. rewrite map_map. rewrite <- (map_id (su_query u)) at 2. apply map_ext_in.
      intros [k v] I. cbn. f_equal. now apply P.
  Qed.
End Directive.

(** ** Guessed types *)
Lemma white_iff c : is_white c = true <-> white c.
Proof. unfold is_white, white. rewrite orb_true_iff, andb_true_iff, !N.leb_le, N.eqb_eq. tauto. Qed.
Lemma trim_end_ok s : exists post, s = trim_end s ++ post /\ all white post /\ forall c t, trim_end s = t ++ String c "" -> ~ white c.
Proof.
  induction s as [|c s (post & E & A & L)].
  - exists "". split; [reflexivity|]. split; [constructor|]. intros c t H. destruct t; discriminate.
  - cbn [trim_end]. destruct (trim_end s) as [|d r] eqn:T.
    + cbn in E. subst s. destruct (is_white c) eqn:C.
      * exists (String c post). split; [reflexivity|]. split; [constructor; [now apply white_iff|exact A]|]. intros x t H. destruct t; discriminate.
      * exists post. split; [reflexivity|]. split; [exact A|]. intros x t H. destruct t as [|y t]; [|destruct t; discriminate].
        injection H as ->. rewrite <- white_iff. congruence.
    + exists post. split; [cbn [append] in *; now rewrite E|]. split; [exact A|]. intros x t H. destruct t as [|y t]; [discriminate|].
      injection H as -> H. eapply L. exact H.
Qed.
Lemma span_white s : exists pre, s = pre ++ snd (span is_white s) /\ all white pre /\ forall c t, snd (span is_white s) = String c t -> ~ white c.
Proof.
  induction s as [|c s (pre & E & A & L)]; [exists ""; repeat split; [constructor|discriminate]|]. cbn [span]. destruct (is_white c) eqn:C.
  - destruct (span is_white s) as [x y] eqn:S. cbn [snd] in *. exists (String c pre). split; [cbn; now rewrite E at 1|].
    split; [constructor; [now apply white_iff|exact A]|exact L].
  - exists "". split; [reflexivity|]. split; [constructor|]. cbn. intros d t H. injection H as <- <-. rewrite <- white_iff. congruence.
Qed.
Lemma trim_ok v : trimmed v (trim v).
Proof.
  unfold trim. destruct (span_white v) as (pre & E & A & L). set (y := snd (span is_white v)) in *.
  destruct (trim_end_ok y) as (post & E' & A' & L'). exists pre, post. split; [rewrite <- E'; exact E|]. split; [exact A|]. split; [exact A'|].
  split; [|exact L']. intros c t H. rewrite H in E'. cbn in E'. eapply L. exact E'.
Qed.
Lemma comma_cut s : has_comma s = true -> exists b, s = fst (cut_at "," s) ++ String "," b /\ ~ contains "," (fst (cut_at "," s)).
Proof.
  induction s as [|c s IH]; [discriminate|]. cbn. destruct (Ascii.eqb_spec c ",") as [-> |C].
  - intros _. exists s. split; [reflexivity|]. intros (a & b & H). destruct a; discriminate.
  - cbn [orb]. intros H. destruct (IH H) as (b & E & N). destruct (cut_at "," s) as [x y]. cbn [fst] in *. exists b. split; [cbn; now rewrite E at 1|].
    intros (u & v & X). destruct u as [|d u]; injection X as X1 X2; [congruence|]. apply N. exists u, v. exact X2.
Qed.
Lemma comma_iff s : has_comma s = true <-> contains "," s.
Proof.
  induction s as [|c s IH]; [split; [discriminate|intros ([|] & y & X); discriminate]|]. cbn. rewrite orb_true_iff, IH. split.
  - intros [H|(x & y & ->)]; [apply Ascii.eqb_eq in H; subst; exists "", s; reflexivity|exists (String c x), y; reflexivity].
  - intros (x & y & H). destruct x as [|x0 x]; injection H as -> ->; [left; reflexivity|right; exists x, y; reflexivity].
Qed.
Section Guessing.
  Variable is_f64 : string -> bool.
  Lemma int_iff v : ScalarModel.parse_integer true (- 2 ^ 31) (2 ^ 31 - 1) v = true <-> int32 v.
  Proof. rewrite ScalarProofs.parse_signed. unfold int32. split; intros (z & I & B); exists z; split; auto; lia. Qed.
  Lemma bool_iff v : (String.eqb v "true" || String.eqb v "false")%bool = true <-> boolean v.
  Proof. rewrite orb_true_iff, !String.eqb_eq. reflexivity. Qed.
  Lemma detect_plain_ok v other : (~ int32 v -> is_f64 v = false -> ~ boolean v -> guessed is_f64 v other) -> guessed is_f64 v (detect_plain is_f64 other v).
  Proof.
    intros H. unfold detect_plain. destruct (ScalarModel.parse_integer _ _ _ v) eqn:I; [apply guessed_int; now apply int_iff|].
    assert (NI : ~ int32 v) by (rewrite <- int_iff; congruence). destruct (is_f64 v) eqn:F; [now apply guessed_float|].
    destruct (String.eqb v "true" || String.eqb v "false")%bool eqn:B; [apply guessed_bool; auto; now apply bool_iff|].
    apply H; auto. rewrite <- bool_iff. congruence.
  Qed.
  Lemma contains_trimmed c v w : trimmed v w -> contains c w -> contains c v.
  Proof. intros (pre & post & -> & _) H. rewrite !contains_app. auto. Qed.
  Lemma detect_ok v : exists w, trimmed v w /\ guessed is_f64 w (detect_gql_data_type is_f64 v).
  Proof.
    exists (trim v). split; [apply trim_ok|]. unfold detect_gql_data_type. apply detect_plain_ok. intros NI NF NB.
    destruct (has_comma (trim v)) eqn:C.
    - destruct (comma_cut _ C) as (b & E & N). eapply guessed_first; [exact NI|exact NF|exact NB|exact E|exact N|apply trim_ok|].
      apply detect_plain_ok. intros NI' NF' NB'. apply guessed_text; auto. intros X. apply N. eapply contains_trimmed; [apply trim_ok|exact X].
    - apply guessed_text; auto. rewrite <- comma_iff. congruence.
  Qed.
End Guessing.

(** ** The field *)
Section Transport.
  Variables (prefix : string) (a b : Z) (types types' : list (string * gtype)).
  Hypothesis agree : forall n t, named prefix a b n -> oget scmp n types = Some t -> oget scmp n types' = Some t.
  Hypothesis closed : forall n t k f, named prefix a b n -> oget scmp n types = Some t -> oget scmp k (t_fields t) = Some f -> named prefix a b (type_name (f_type f)).
  Lemma describes_move ty v : describes types ty v -> named prefix a b (type_name ty) -> describes types' ty v.
  Proof.
    revert v ty. fix IH 3. intros v ty H N. destruct H as [n|v c|x c|z c B|s c|ty c l A|n c g m G A].
    - constructor.
    - constructor.
    - constructor.
    - now constructor.
    - constructor.
    - constructor. intros v I. apply IH; [apply A, I|exact N].
    - apply describes_object with g; [apply agree; [exact N|exact G]|]. intros k v I. destruct (A k v I) as (f & F & D). exists f. split; [exact F|].
      apply IH; [exact D|]. eapply closed; eauto.
  Qed.
End Transport.
Lemma number_has_digit k : ~ all (fun c => ~ digit c) (Z_to_string k).
Proof.
  assert (U : forall d, ~ all (fun c => ~ digit c) (NilZero.string_of_uint d)).
  { intros d H. pose proof (uint_digits d) as D. assert (N : NilZero.string_of_uint d <> "") by (destruct d; cbn; discriminate).
    destruct (NilZero.string_of_uint d) as [|c s]; [congruence|]. inversion H; subst. inversion D; subst. contradiction. }
  unfold Z_to_string. destruct (Z.to_int k) as [d|d]; [apply U|]. intros H. cbn in H. inversion H; subst. now apply (U d).
Qed.
Lemma scalar_not_numbered prefix k n : plain_scalar n -> n <> numbered prefix k.
Proof.
  intros P E. apply (number_has_digit k). assert (H : all (fun c => ~ digit c) n).
  { unfold plain_scalar in P. cbn in P. repeat destruct P as [<-|P]; try contradiction; repeat (apply all_cons; [unfold digit; cbn; lia|]); apply all_nil. }
  rewrite E in H. unfold numbered in H. now apply all_app in H.
Qed.
Section Field.
  Variables (is_f64 is_utf8 : string -> bool) (camel : string -> string) (http_text : gen_http -> string).
  Lemma field_added prefix s st h st' :
    generate_sample is_f64 is_utf8 camel http_text prefix s st = Some (h, st') ->
    (forall k, (gs_next st <= k)%Z -> oget scmp (numbered prefix k) (gs_types st) = None) ->
    (forall n, plain_scalar n -> oget scmp n (gs_types st) = None) ->
    forall root, root = (if sa_mutation s then "Mutation" else "Query") -> (forall k, numbered prefix k <> root) ->
    exists g f h0 args, generate_http_directive is_f64 is_utf8 camel (sa_url s) = Some (h0, args) /\
      oget scmp root (gs_types st') = Some g /\ oget scmp (sa_field s) (t_fields g) = Some f /\
      f_resolvers f = [RHttp [] (http_text h)] /\
      (regular (sa_answer s) -> describes (gs_types st') (f_type f) (sa_answer s)) /\
      gh_url h = gh_url h0 /\ gh_query h = gh_query h0 /\
      (forall k, k <> "GEN__Input1" \/ sa_mutation s = false -> aget k (f_args f) = aget k args) /\
      (if sa_mutation s
       then gh_method h = sa_method s /\ gh_body h = Some "{{.args.GEN__Input1}}" /\
         exists a, aget "GEN__Input1" (f_args f) = Some a /\
           (regular (sa_body s) -> (forall l, sa_body s <> VList l) -> describes (gs_types st') (arg_type a) (sa_body s))
       else gh_method h = "GET" /\ gh_body h = None) /\
      (forall n, n <> sa_field s -> oget scmp n (t_fields g) =
         match oget scmp root (gs_types st) with Some g0 => oget scmp n (t_fields g0) | None => None end) /\
      (gs_next st <= gs_next st')%Z /\
      (forall n, n <> root -> (forall k, (gs_next st <= k < gs_next st')%Z -> n <> numbered prefix k) ->
         oget scmp n (gs_types st') = oget scmp n (gs_types st)).
  Proof.
    unfold generate_sample, generate_operation. intros H Fr Sc root Rt Nr.
    destruct (generate_types prefix (sa_answer s) st) as [name st1] eqn:G1.
    destruct (generate_http_directive is_f64 is_utf8 camel (sa_url s)) as [[h0 args]|] eqn:D; [|discriminate].
    destruct (proj1 (all_ok prefix (sa_answer s)) _ _ _ G1 Fr) as (S1 & N1 & _ & Gd1).
    pose proof (step_fresh prefix _ _ S1 Fr) as Fr1.
    assert (Main : forall st2 hh aa, step prefix st1 st2 ->
      st' = {| gs_next := gs_next st2; gs_types := oins scmp (root_name s) (match oget scmp (root_name s) (gs_types st2) with
        | Some t => with_field t (sa_field s) (operation_field http_text (sample_type (sa_answer s) name) aa hh)
        | None => with_fields [(sa_field s, operation_field http_text (sample_type (sa_answer s) name) aa hh)] end) (gs_types st2) |} ->
      (exists g f, oget scmp root (gs_types st') = Some g /\ oget scmp (sa_field s) (t_fields g) = Some f /\
         f_resolvers f = [RHttp [] (http_text hh)] /\ f_args f = aa /\ f_type f = sample_type (sa_answer s) name /\
         (forall n, n <> sa_field s -> oget scmp n (t_fields g) =
           match oget scmp root (gs_types st) with Some g0 => oget scmp n (t_fields g0) | None => None end)) /\
      (gs_next st <= gs_next st')%Z /\
      (forall n, n <> root -> (forall k, (gs_next st <= k < gs_next st')%Z -> n <> numbered prefix k) -> oget scmp n (gs_types st') = oget scmp n (gs_types st)) /\
      (forall ty v, describes (gs_types st2) ty v -> named prefix (gs_next st) (gs_next st2) (type_name ty) -> describes (gs_types st') ty v)).
    { intros st2 hh aa S2 E. pose proof (step_trans prefix _ _ _ S1 S2) as S. destruct S as (L & F & N).
      assert (Rn : root_name s = root) by (rewrite Rt; reflexivity). rewrite Rn in E.
      assert (R0 : oget scmp root (gs_types st2) = oget scmp root (gs_types st)) by (apply F; intros k _ X; now destruct (Nr k)).
      rewrite E. cbn [gs_types gs_next]. split; [|split; [exact L|split]].
      - eexists _, (operation_field http_text (sample_type (sa_answer s) name) aa hh). split; [apply (oget_oins_same scmp scmp_order)|].
        rewrite R0. destruct (oget scmp root (gs_types st)) as [g0|].
        + cbn [t_fields with_field]. split; [apply (oget_oins_same scmp scmp_order)|]. split; [reflexivity|]. split; [reflexivity|]. split; [reflexivity|].
          intros n X. now apply (oget_oins_other scmp scmp_order).
        + split; [change (t_fields (with_fields [(sa_field s, operation_field http_text (sample_type (sa_answer s) name) aa hh)])) with
            (oins scmp (sa_field s) (operation_field http_text (sample_type (sa_answer s) name) aa hh) []); apply (oget_oins_same scmp scmp_order)|].
          split; [reflexivity|]. split; [reflexivity|]. split; [reflexivity|]. intros n X.
          change (t_fields (with_fields [(sa_field s, operation_field http_text (sample_type (sa_answer s) name) aa hh)])) with
            (oins scmp (sa_field s) (operation_field http_text (sample_type (sa_answer s) name) aa hh) []).
          rewrite (oget_oins_other scmp scmp_order) by exact X. reflexivity.
      - intros n X Y. rewrite (oget_oins_other scmp scmp_order) by exact X. apply F. exact Y.
      - intros ty v Ds Nm. eapply (describes_move prefix (gs_next st) (gs_next st2)); [| |exact Ds|exact Nm].
        + intros n t Nn T. rewrite (oget_oins_other scmp scmp_order); [exact T|]. intros ->. destruct Nn as [P|(k & _ & P)].
          * subst root. unfold plain_scalar in P. cbn in P. destruct (sa_mutation s); repeat destruct P as [P|P]; try discriminate; contradiction.
          * now destruct (Nr k).
        + intros n t k f Nn T Fk. destruct Nn as [P|(j & J & ->)].
          * rewrite F in T; [rewrite (Sc n P) in T; discriminate|]. intros j _ X. eapply scalar_not_numbered; [exact P|exact X].
          * destruct (N j J) as (t' & T' & _ & Cl). rewrite T in T'. injection T' as <-. destruct (Cl _ _ Fk) as [_ Nk].
            eapply named_weaken; [exact Nk|lia|lia]. }
    assert (Add : forall aa k v, k <> input_arg -> aget k (aset input_arg v aa) = aget (A := arg) k aa) by (intros; now apply aget_aset_other).
    destruct (sa_mutation s) eqn:Mu.
    - destruct (generate_types prefix (sa_body s) st1) as [ty st2] eqn:G2.
      destruct (proj1 (all_ok prefix (sa_body s)) _ _ _ G2 Fr1) as (S2 & N2 & _ & Gd2). injection H as <- E.
      destruct (Main st2 _ _ S2 (eq_sym E)) as ((g & f & Hg & Hf & Hr & Ha & Ht & Ho) & Hl & Hu & Hm). subst root.
      pose proof (proj1 S2) as L2. pose proof (proj1 S1) as L1.
      exists g, f, h0, args. split; [reflexivity|]. split; [exact Hg|]. split; [exact Hf|]. split; [exact Hr|]. split.
      { intros R. rewrite Ht. apply Hm.
        - eapply describes_mono; [|apply Gd1, R]. eapply step_extends; eauto.
        - rewrite sample_type_name. eapply named_weaken; [exact N1|lia|lia]. }
      split; [reflexivity|]. split; [reflexivity|]. split.
      { intros k [K|K]; [|discriminate]. rewrite Ha. now apply Add. }
      split; [|split; [exact Ho|split; [exact Hl|exact Hu]]]. split; [reflexivity|]. split; [reflexivity|].
      exists (arg_of (TNamed ty false)). split; [rewrite Ha; apply aget_aset_same|]. intros R NL. cbn [arg_type arg_of].
      replace (TNamed ty false) with (sample_type (sa_body s) ty) by (destruct (sa_body s); try reflexivity; now destruct (NL l)).
      apply Hm; [apply Gd2, R|]. rewrite sample_type_name. eapply named_weaken; [exact N2|lia|lia].
    - injection H as <- E.
      destruct (Main st1 _ _ (step_refl prefix st1) (eq_sym E)) as ((g & f & Hg & Hf & Hr & Ha & Ht & Ho) & Hl & Hu & Hm). subst root.
      exists g, f, h0, args. split; [reflexivity|]. split; [exact Hg|]. split; [exact Hf|]. split; [exact Hr|]. split.
      { intros R. rewrite Ht. apply Hm; [apply Gd1, R|]. rewrite sample_type_name. exact N1. }
      split; [reflexivity|]. split; [reflexivity|]. split; [intros k _; now rewrite Ha|].
      split; [|split; [exact Ho|split; [exact Hl|exact Hu]]].
      unfold generate_http_directive in D. destruct (path_variables is_utf8 (sa_url s)) as [[u a]|]; [|discriminate].
      destruct (query_variables is_f64 camel (sa_url s)) as [q b]. injection D as <- <-. split; reflexivity.
  Qed.
End Field.
Lemma trim_end_white s : all white s -> trim_end s = "".
Proof. induction 1 as [|c s C _ IH]; [reflexivity|]. cbn. rewrite IH. apply white_iff in C. now rewrite C. Qed.
Lemma trim_end_app w post : all white post -> (forall c t, w = t ++ String c "" -> ~ white c) -> trim_end (w ++ post) = w.
Proof.
  intros P. induction w as [|c w IH]; intros L; [now apply trim_end_white|]. cbn [append trim_end].
  rewrite IH by (intros x t ->; apply (L x (String c t)); reflexivity). destruct w as [|d w]; [|reflexivity].
  destruct (is_white c) eqn:C; [|reflexivity]. apply white_iff in C. now destruct (L c "" eq_refl).
Qed.
Lemma span_app pre r : all white pre -> (forall c t, r = String c t -> ~ white c) -> snd (span is_white (pre ++ r)) = r.
Proof.
  intros P N. induction P as [|c pre C _ IH].
  - destruct r as [|c r]; [reflexivity|]. cbn. destruct (is_white c) eqn:W; [|reflexivity]. apply white_iff in W. now destruct (N c r eq_refl).
  - cbn [append span]. apply white_iff in C. rewrite C. destruct (span is_white (pre ++ r)) as [x y]. exact IH.
Qed.
Lemma trimmed_trim v w : trimmed v w -> w = trim v.
Proof.
  intros (pre & post & -> & P & Q & A & B). unfold trim. destruct w as [|c w].
  - cbn [append]. assert (H : all white (pre ++ post)) by now apply all_app. clear -H.
    assert (X : snd (span is_white (pre ++ post)) = ""); [|now rewrite X].
    induction H as [|c s C _ IH]; [reflexivity|]. cbn. apply white_iff in C. rewrite C. destruct (span is_white s). exact IH.
  - rewrite span_app; [symmetry; now apply trim_end_app|exact P|]. intros d t H. cbn in H. injection H as <- _. now apply (A c w).
Qed.
Lemma contains_cut c a b a' b' : a ++ String c b = a' ++ String c b' -> ~ contains c a -> ~ contains c a' -> a = a'.
Proof.
  revert a'. induction a as [|d a IH]; intros a' E N N'; destruct a' as [|d' a']; cbn in E; [reflexivity|..].
  - injection E as -> _. destruct N'. exists "", a'. reflexivity.
  - injection E as <- _. destruct N. exists "", a. reflexivity.
  - injection E as <- E. f_equal. apply IH; [exact E|..].
    + intros (x & y & ->). apply N. exists (String d x), y. reflexivity.
    + intros (x & y & ->). apply N'. exists (String d x), y. reflexivity.
Qed.
Lemma guessed_unique is_f64 v t t' : guessed is_f64 v t -> guessed is_f64 v t' -> t = t'.
Proof.
  intros G. revert t'. induction G as [v I|v I F|v I F B|v I F B C|v a b w ty I F B E N T G IH]; intros t' H; inversion H; subst; try congruence; try contradiction.
  - match goal with X : ~ contains "," (?a ++ String "," ?b) |- _ => destruct X; exists a, b; reflexivity end.
  - match goal with X : ~ contains "," (?a ++ String "," ?b) |- _ => destruct X; exists a, b; reflexivity end.
  - match goal with X : _ ++ String "," _ = _ ++ String "," _ |- _ => apply contains_cut in X; [|assumption|assumption]; subst end.
    apply IH. replace w with w0 by (rewrite (trimmed_trim _ _ T); now apply trimmed_trim). assumption.
Qed.
