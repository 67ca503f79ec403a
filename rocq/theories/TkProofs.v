(** Proofs about what is told about the use (C101). *)
From Coq Require Import String Ascii NArith Arith Bool List Lia.
From Verif Require Import Base BaseFacts StringFacts TkModel TkSpec.
Import ListNotations.
Open Scope string_scope.
Open Scope list_scope.

Lemma letter_iff : forall c, letter c = true <-> is_letter c.
Proof.
  intro c. unfold letter, is_letter. rewrite orb_true_iff, !andb_true_iff, !N.leb_le. tauto.
Qed.
Lemma digit_iff : forall c, digit c = true <-> is_digit c.
Proof. intro c. unfold digit, is_digit. rewrite andb_true_iff, !N.leb_le. tauto. Qed.
Lemma domain_iff : forall c, domain_char c = true <-> in_domain c.
Proof.
  intro c. unfold domain_char, in_domain. cbn [existsb]. rewrite !orb_true_iff, letter_iff, digit_iff, !Ascii.eqb_eq. intuition discriminate.
Qed.
Lemma local_iff : forall c, local_char c = true <-> in_local c.
Proof.
  intro c. unfold local_char, in_local, in_domain. cbn [existsb]. rewrite !orb_true_iff, letter_iff, digit_iff, !Ascii.eqb_eq. intuition discriminate.
Qed.
Lemma run_ok : forall p s a b, run p s = (a, b) -> s = (a ++ b)%string /\ all_chars p a = true.
Proof.
  intros p s. induction s as [|c s IH]; simpl; intros a b E; [injection E as <- <-; auto|].
  destruct (p c) eqn:P; [|injection E as <- <-; auto]. destruct (run p s) as [a' b'] eqn:R. injection E as <- <-.
  destruct (IH _ _ eq_refl) as (-> & A). simpl. rewrite P, A. auto.
Qed.
Lemma run_all : forall p a b, all_chars p a = true -> (match b with String c _ => p c = false | "" => True end) -> run p (a ++ b) = (a, b).
Proof.
  intros p a b A B. induction a as [|c a IH]; simpl in *.
  - destruct b as [|c b]; [reflexivity|]. simpl. rewrite B. reflexivity.
  - apply andb_true_iff in A. destruct A as (P & A). rewrite P, (IH A). reflexivity.
Qed.
Lemma all_made : forall p q s, (forall c, p c = true <-> q c) -> (all_chars p s = true <-> made_of q s).
Proof.
  intros p q s I. induction s as [|c s IH]; simpl; [tauto|]. rewrite andb_true_iff, IH, I. tauto.
Qed.
Lemma all_app : forall p a b, all_chars p (a ++ b) = all_chars p a && all_chars p b.
Proof. intros p a b. induction a as [|c a IH]; simpl; [reflexivity|]. rewrite IH. apply andb_assoc. Qed.
Lemma fits_ok : forall s, fits_domain s = true <-> exists d t, s = (d ++ "." ++ t)%string /\ d <> "" /\ all_chars letter t = true /\ 2 <= String.length t.
Proof.
  induction s as [|c s IH].
  - split; [discriminate|]. intros (d & t & E & N & _). destruct d; [destruct (N eq_refl)|discriminate].
  - cbn [fits_domain]. rewrite orb_true_iff, IH. split.
    + intros [H|(d & t & -> & N & A & L)].
      * destruct s as [|d l]; [discriminate|]. apply andb_true_iff in H. destruct H as (H & L). apply andb_true_iff in H. destruct H as (D & A).
        apply Ascii.eqb_eq in D. subst d. exists (String c ""), l. split; [reflexivity|]. split; [discriminate|]. split; [exact A|]. apply Nat.leb_le. exact L.
      * exists (String c d), t. split; [reflexivity|]. split; [discriminate|]. auto.
    + intros (d & t & E & N & A & L). destruct d as [|c' d]; [destruct (N eq_refl)|]. simpl in E. injection E as <- E.
      destruct d as [|c' d].
      * left. simpl in E. subst s. rewrite Ascii.eqb_refl, A. rewrite !andb_true_l. apply Nat.leb_le. exact L.
      * right. exists (String c' d), t. split; [exact E|]. split; [discriminate|]. auto.
Qed.
Lemma longest_ok : forall d pre p b, longest pre d = Some (p, b) -> (pre ++ d)%string = (p ++ b)%string /\ fits_domain p = true.
Proof.
  induction d as [|c d IH]; intros pre p b E; cbn [longest] in E.
  - destruct (fits_domain pre) eqn:F; [|discriminate]. injection E as <- <-. auto.
  - destruct (longest (pre ++ String c "") d) as [[p' b']|] eqn:L.
    + injection E as <- <-. destruct (IH _ _ _ L) as (A & F). rewrite str_app_assoc in A. simpl in A. auto.
    + destruct (fits_domain pre) eqn:F; [|discriminate]. injection E as <- <-. auto.
Qed.
Lemma longest_whole : forall d pre, fits_domain (pre ++ d) = true -> longest pre d = Some ((pre ++ d)%string, "").
Proof.
  induction d as [|c d IH]; intros pre F; cbn [longest].
  - rewrite str_app_nil_r in *. rewrite F. reflexivity.
  - rewrite IH; [rewrite str_app_assoc; reflexivity|]. rewrite str_app_assoc. exact F.
Qed.
Lemma address_at_ok : forall s e r, address_at s = Some (e, r) -> s = (e ++ r)%string /\ address e.
Proof.
  intros s e r E. unfold address_at in E. destruct (run local_char s) as [l q] eqn:R. apply run_ok in R. destruct R as (-> & L).
  destruct l as [|c l]; [discriminate|]. destruct q as [|a q]; [discriminate|]. destruct (Ascii.eqb_spec a "@") as [->|]; [|discriminate].
  destruct (run domain_char q) as [d rest] eqn:D. apply run_ok in D. destruct D as (-> & D).
  destruct (longest "" d) as [[d' back]|] eqn:G; [|discriminate]. injection E as <- <-. apply longest_ok in G. destruct G as (G & F). simpl in G. subst d.
  split; [simpl; rewrite !str_app_assoc; reflexivity|].
  apply fits_ok in F. destruct F as (x & t & -> & N & A & Ln). exists (String c l), x, t. split; [reflexivity|]. split; [discriminate|].
  split; [apply (all_made local_char in_local); [exact local_iff|exact L]|]. split; [exact N|].
  rewrite !all_app in D. apply andb_true_iff in D. destruct D as (D & _). apply andb_true_iff in D. destruct D as (D & _).
  split; [apply (all_made domain_char in_domain); [exact domain_iff|exact D]|]. split; [exact Ln|].
  apply (all_made letter is_letter); [exact letter_iff|exact A].
Qed.
Lemma find_ok : forall n s e, In e (find_addresses n s) -> address e /\ part_of e s.
Proof.
  induction n as [|n IH]; intros s e I; [destruct I|]. cbn [find_addresses] in I. destruct s as [|c s]; [destruct I|].
  destruct (address_at (String c s)) as [[x r]|] eqn:A.
  - apply address_at_ok in A. destruct A as (A & Ad). rewrite A. destruct I as [<-|I].
    + split; [exact Ad|]. exists "", r. reflexivity.
    + destruct (IH _ _ I) as (B & a & b & ->). split; [exact B|]. exists (x ++ a)%string, b. rewrite str_app_assoc. reflexivity.
  - destruct (IH _ _ I) as (B & a & b & ->). split; [exact B|]. exists (String c a), b. reflexivity.
Qed.
Lemma domain_letter : forall t, all_chars letter t = true -> all_chars domain_char t = true.
Proof.
  induction t as [|c t IH]; simpl; [auto|]. rewrite !andb_true_iff. intros (L & A). split; [|auto]. unfold domain_char. rewrite L. reflexivity.
Qed.
(** An address is found where it begins, if what follows cannot be part of it. *)
Lemma address_found : forall e r, address e -> (match r with String c _ => domain_char c = false | "" => True end) -> address_at (e ++ r) = Some (e, r).
Proof.
  intros e r (l & d & t & -> & N & L & Nd & D & Ln & T) R. unfold address_at.
  replace ((l ++ "@" ++ d ++ "." ++ t) ++ r)%string with (l ++ (String "@" ((d ++ "." ++ t) ++ r)))%string
    by (rewrite !str_app_assoc; simpl; repeat rewrite str_app_assoc; simpl; repeat rewrite str_app_assoc; reflexivity).
  apply (all_made local_char in_local) in L; [|exact local_iff]. apply (all_made domain_char in_domain) in D; [|exact domain_iff].
  apply (all_made letter is_letter) in T; [|exact letter_iff].
  rewrite run_all; [|exact L|reflexivity]. destruct l as [|c l]; [destruct (N eq_refl)|]. rewrite Ascii.eqb_refl.
  rewrite run_all; [|rewrite !all_app, D, (domain_letter _ T); reflexivity|exact R].
  rewrite longest_whole; [reflexivity|]. apply fits_ok. exists d, t. auto.
Qed.
Lemma address_nonempty : forall e, address e -> exists c s, e = String c s.
Proof. intros e (l & d & t & -> & N & _). destruct l as [|c l]; [destruct (N eq_refl)|]. eexists _, _. reflexivity. Qed.
Lemma str_length_app : forall a b, String.length (a ++ b) = String.length a + String.length b.
Proof. induction a as [|c a IH]; intro b; simpl; [reflexivity|rewrite IH; reflexivity]. Qed.

Lemma collect_ok : forall works t l, fst (collect works t l) = map (fun c => Tells c t) (fst (fold_right (fun c (p : list string * bool) => if works c then (c :: fst p, snd p) else ([c], false)) ([], true) l)).
Proof.
  intros works t l. induction l as [|c l IH]; simpl; [reflexivity|]. destruct (works c); [|reflexivity].
  destruct (collect works t l) as [es ok]. simpl in *. rewrite IH. reflexivity.
Qed.
Lemma runs_app : forall a b, runs_of (a ++ b) = runs_of a ++ runs_of b.
Proof. intros a b. apply flat_map_app. Qed.
Lemma told_app : forall c a b, told_to c (a ++ b) = told_to c a ++ told_to c b.
Proof. intros c a b. apply flat_map_app. Qed.
