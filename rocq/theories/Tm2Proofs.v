(** Proofs about the merging of similar types: what one round, and all rounds, do. *)
From Coq Require Import String Ascii ZArith Bool Arith List Lia.
From Verif Require Import Base Ordered OrderedFacts JsonModel TypeModel ConfigModel MergeModel RenameModel RenameSpec RenameProofs GraphModel AmbModel DocModel TmModel TmSpec TmProofs BaseFacts.
Import ListNotations.
Open Scope string_scope.
Open Scope list_scope.

(** ** Merging fields *)
Definition json_type (x : field) : field :=
  {| f_type := TNamed "JSON" false; f_args := f_args x; f_doc := f_doc x; f_modify := f_modify x;
     f_omit := f_omit x; f_cache := f_cache x; f_default := f_default x; f_protected := f_protected x;
     f_discriminate := f_discriminate x; f_resolvers := f_resolvers x; f_directives := f_directives x |}.
Definition is_json (x : field) : bool := String.eqb (type_name (f_type x)) "JSON".
Definition joined_field (into x : option field) : option field :=
  match into, x with
  | Some e, Some y => Some (if is_json e || is_json y then json_type y else y)
  | None, Some y => Some y
  | e, None => e
  end.
Lemma scmp_eq a b : scmp a b = Eq -> a = b.
Proof. apply (to_eq _ scmp_order). Qed.
Lemma oget_oins {V} k k' v (m : list (string * V)) : oget scmp k' (oins scmp k v m) = if String.eqb k' k then Some v else oget scmp k' m.
Proof.
  destruct (String.eqb_spec k' k) as [->|N]; [apply (oget_oins_same scmp scmp_order)|]. now apply (oget_oins_other scmp scmp_order).
Qed.
Lemma merge_field_get into kf f : oget scmp f (merge_field into kf) =
  if String.eqb f (fst kf) then joined_field (oget scmp f into) (Some (snd kf)) else oget scmp f into.
Proof.
  unfold merge_field. destruct (String.eqb_spec f (fst kf)) as [->|N].
  - destruct (oget scmp (fst kf) into) as [e|] eqn:E; rewrite oget_oins, String.eqb_refl; reflexivity.
  - destruct (oget scmp (fst kf) into) as [e|] eqn:E; rewrite oget_oins; destruct (String.eqb_spec f (fst kf)); congruence.
Qed.
Lemma merge_fields_get l : NoDup (map fst l) -> forall into f, oget scmp f (fold_left merge_field l into) = joined_field (oget scmp f into) (oget scmp f l).
Proof.
  induction l as [|[k x] l IH]; intros N into f; cbn [fold_left]; [cbn; now destruct (oget scmp f into)|]. inversion N as [|? ? Nk Nl]; subst.
  rewrite IH by exact Nl. rewrite merge_field_get. cbn [fst snd oget]. destruct (String.eqb_spec f k) as [->|Ne].
  - rewrite (to_refl _ k scmp_order). assert (oget scmp k l = None) as -> by (apply (oget_none scmp scmp_order); exact Nk).
    cbn. destruct (oget scmp k into); reflexivity.
  - destruct (scmp f k) eqn:E; [apply scmp_eq in E; contradiction|reflexivity|reflexivity].
Qed.
Lemma merge_field_sorted l : forall into, osorted scmp into -> osorted scmp (fold_left merge_field l into).
Proof.
  induction l as [|[k x] l IH]; intros into S; cbn [fold_left]; [exact S|]. apply IH. unfold merge_field. destruct (oget scmp _ into); now apply (osorted_oins scmp scmp_order).
Qed.

Definition merge_all (ts : list gtype) (into : gtype) : gtype := fold_left (fun into t => merge_type t into) ts into.
Lemma merge_all_sorted ts : forall into, osorted scmp (t_fields into) -> osorted scmp (t_fields (merge_all ts into)).
Proof. induction ts as [|t ts IH]; intros into S; [exact S|]. cbn. apply IH. cbn. now apply merge_field_sorted. Qed.
Lemma merge_all_implements ts : forall into i, In i (t_implements (merge_all ts into)) <-> In i (t_implements into) \/ exists t, In t ts /\ In i (t_implements t).
Proof.
  induction ts as [|t ts IH]; intros into i; cbn [merge_all fold_left].
  - split; [auto|]. intros [H|(t & [] & _)]. exact H.
  - change (fold_left (fun into t => merge_type t into) ts (merge_type t into)) with (merge_all ts (merge_type t into)). rewrite IH. cbn [merge_type t_implements]. unfold m_set.
    rewrite (sextend_in scmp scmp_order). split.
    + intros [[H|H]|(u & U & H)]; [auto|right; exists t; split; [now left|auto]|right; exists u; split; [now right|auto]].
    + intros [H|(u & [<-|U] & H)]; [auto|auto|right; exists u; auto].
Qed.
(** a field of the merged type *)
Lemma merge_all_field ts : (forall t, In t ts -> osorted scmp (t_fields t)) -> forall into f,
  match oget scmp f (t_fields (merge_all ts into)) with
  | None => oget scmp f (t_fields into) = None /\ forall t, In t ts -> oget scmp f (t_fields t) = None
  | Some x' =>
      (exists x, (oget scmp f (t_fields into) = Some x \/ exists t, In t ts /\ oget scmp f (t_fields t) = Some x) /\ (x' = x \/ x' = json_type x)) /\
      (is_json x' = true <-> exists x, (oget scmp f (t_fields into) = Some x \/ exists t, In t ts /\ oget scmp f (t_fields t) = Some x) /\ is_json x = true)
  end.
Proof.
  induction ts as [|t ts IH]; intros S into f; cbn [merge_all fold_left].
  - destruct (oget scmp f (t_fields into)) as [x|]; [|split; [auto|intros ? []]]. split; [exists x; auto|]. split; [intros J; exists x; auto|].
    intros (y & [E|(u & [] & _)] & J). congruence.
  - change (fold_left (fun into t => merge_type t into) ts (merge_type t into)) with (merge_all ts (merge_type t into)).
    assert (S' : forall u, In u ts -> osorted scmp (t_fields u)) by (intros u U; apply S; now right).
    specialize (IH S' (merge_type t into) f). cbn [merge_type t_fields] in IH.
    rewrite merge_fields_get in IH by (apply (osorted_nodup scmp scmp_order), S; now left).
    assert (St : forall u x, oget scmp f (t_fields u) = Some x -> In u ts -> exists u0, In u0 (t :: ts) /\ oget scmp f (t_fields u0) = Some x) by (intros u x E U; exists u; split; [now right|exact E]).
    destruct (oget scmp f (t_fields (merge_all ts _))) as [x'|].
    + destruct IH as ((x & X & Xe) & J).
      assert (Json : forall y z, (if is_json y || is_json z then json_type z else z) = x -> x = z \/ x = json_type z) by (intros y z <-; destruct (_ || _); auto).
      split.
      * destruct X as [X|(u & U & X)].
        -- unfold joined_field in X. destruct (oget scmp f (t_fields into)) as [e|] eqn:E, (oget scmp f (t_fields t)) as [y|] eqn:Y.
           ++ injection X as X. exists y. split; [right; exists t; split; [now left|exact Y]|]. destruct (Json _ _ X) as [-> | ->]; destruct Xe as [-> | ->]; auto.
           ++ injection X as <-. exists e. split; [auto|exact Xe].
           ++ injection X as <-. exists y. split; [right; exists t; split; [now left|exact Y]|exact Xe].
           ++ discriminate.
        -- exists x. split; [right; eapply St; eauto|exact Xe].
      * rewrite J. split.
        -- intros (y & [Y|(u & U & Y)] & Jy); [|exists y; split; [right; eapply St; eauto|exact Jy]].
           unfold joined_field in Y. destruct (oget scmp f (t_fields into)) as [e|] eqn:E, (oget scmp f (t_fields t)) as [z|] eqn:Z.
           ++ injection Y as Y. destruct (is_json e) eqn:Je; [exists e; auto|]. destruct (is_json z) eqn:Jz; [exists z; split; [right; exists t; split; [now left|exact Z]|exact Jz]|].
              cbn in Y. congruence.
           ++ injection Y as <-. exists e. auto.
           ++ injection Y as <-. exists z. split; [right; exists t; split; [now left|exact Z]|exact Jy].
           ++ discriminate.
        -- intros (y & [Y|(u & [<-|U] & Y)] & Jy).
           ++ rewrite Y. cbn [joined_field]. destruct (oget scmp f (t_fields t)) as [z|]; [|exists y; auto]. eexists. split; [left; reflexivity|]. rewrite Jy. reflexivity.
           ++ rewrite Y. destruct (oget scmp f (t_fields into)) as [e|]; [|exists y; auto]. eexists. split; [left; reflexivity|]. rewrite Jy, orb_true_r. reflexivity.
           ++ exists y. split; [right; exists u; auto|exact Jy].
    + destruct IH as (A & B). unfold joined_field in A. destruct (oget scmp f (t_fields into)) as [e|], (oget scmp f (t_fields t)) as [y|] eqn:Y; try discriminate.
      split; [reflexivity|]. intros u [<-|U]; [exact Y|now apply B].
Qed.

(** ** Merging groups *)
Fixpoint parts (m : list (string * gtype)) (g : list string) : list gtype :=
  match g with [] => [] | n :: g => match oget scmp n m with Some t => t :: parts m g | None => parts m g end end.
Lemma parts_in m g t : In t (parts m g) <-> exists n, In n g /\ oget scmp n m = Some t.
Proof.
  induction g as [|n g IH]; cbn [parts]; [split; [intros []|intros (n & [] & _)]|]. destruct (oget scmp n m) as [u|] eqn:O; cbn [In]; rewrite IH; split.
  - intros [<-|(k & K & E)]; [exists n; auto|exists k; auto].
  - intros (k & [<-|K] & E); [left; congruence|right; exists k; auto].
  - intros (k & K & E); exists k; auto.
  - intros (k & [<-|K] & E); [congruence|exists k; auto].
Qed.
Lemma merge_group_eq s g : (forall n, In n g -> oget scmp n (mg_types s) <> None) -> g <> [] ->
  merge_group s g =
  {| mg_types := oins scmp (merged_name (mg_counter s)) (merge_all (parts (mg_types s) g) empty_gtype) (mg_types s);
     mg_mapping := fold_left (fun mp n => aset n (merged_name (mg_counter s)) mp) g (mg_mapping s); mg_counter := mg_counter s + 1 |}.
Proof.
  intros Ex Ne. unfold merge_group. set (name := merged_name (mg_counter s)).
  assert (F : forall g, (forall n, In n g -> oget scmp n (mg_types s) <> None) -> forall into mp did,
    fold_left (fun a n => match oget scmp n (mg_types s) with Some t => let '(into, mapping, _) := a in (merge_type t into, aset n name mapping, true) | None => a end) g (into, mp, did)
    = (merge_all (parts (mg_types s) g) into, fold_left (fun mp n => aset n name mp) g mp, did || negb (match g with [] => true | _ => false end))).
  { clear. induction g as [|n g IH]; intros Ex into mp did; cbn [fold_left parts]; [cbn; now rewrite orb_false_r|].
    destruct (oget scmp n (mg_types s)) as [t|] eqn:O; [|exfalso; exact (Ex n (or_introl eq_refl) O)].
    rewrite IH by (intros k K; apply Ex; now right). cbn. rewrite orb_true_r. reflexivity. }
  rewrite F by exact Ex. destruct g; [congruence|]. reflexivity.
Qed.
Lemma aset_all_get g v : forall (mp : list (string * string)) n, aget n (fold_left (fun mp n => aset n v mp) g mp) = if smem n g then Some v else aget n mp.
Proof.
  induction g as [|k g IH]; intros mp n; cbn [fold_left]; [reflexivity|]. rewrite IH. destruct (String.eqb_spec n k) as [->|N].
  - cbn [smem existsb]. rewrite String.eqb_refl. cbn. rewrite aget_aset_same. now destruct (smem k g).
  - rewrite (aget_aset_other k n v mp N). unfold smem. cbn [existsb]. destruct (String.eqb_spec n k); [contradiction|]. reflexivity.
Qed.
Lemma aset_keys (n v : string) mp x : In x (map fst (aset n v mp)) <-> x = n \/ In x (map fst mp).
Proof.
  split.
  - intros I. destruct (String.eqb_spec x n) as [->|N]; [auto|]. right. destruct (aget x mp) as [y|] eqn:E.
    + apply aget_In in E. apply in_map_iff. exists (x, y). auto.
    + exfalso. rewrite <- (aget_aset_other n x v mp N) in E. apply aget_None in E. contradiction.
  - intros H. destruct (aget x (aset n v mp)) as [y|] eqn:E; [apply aget_In in E; apply in_map_iff; exists (x, y); auto|]. exfalso.
    destruct (String.eqb_spec x n) as [->|N]; [rewrite aget_aset_same in E; discriminate|]. rewrite (aget_aset_other n x v mp N) in E. apply aget_None in E. destruct H; contradiction.
Qed.
Lemma aset_nodup (n v : string) mp : NoDup (map fst mp) -> NoDup (map fst (aset n v mp)).
Proof.
  induction mp as [|[k w] mp IH]; intros N; cbn; [constructor; [intros []|constructor]|]. inversion N as [|? ? Nk Nm]; subst. destruct (String.eqb_spec n k) as [->|Ne]; cbn.
  - now constructor.
  - constructor; [|now apply IH]. intros I. apply aset_keys in I. destruct I as [->|I]; contradiction.
Qed.

Section Round.
  Variable c : config.
  Variable k : Z.
  Hypothesis sorted : osorted scmp (c_types c).
  Hypothesis sorted_fields : forall n t, find_type c n = Some t -> osorted scmp (t_fields t).
  Definition name_at (i : nat) : string := merged_name (k + Z.of_nat i).
  Lemma name_at_inj i j : name_at i = name_at j -> i = j.
  Proof.
    unfold name_at, merged_name. intros H. assert (E : forall p a b, (p ++ a = p ++ b)%string -> a = b) by (induction p as [|ch p IH]; cbn; intros a b X; [exact X|injection X as X; auto]).
    apply E in H. apply Z_to_string_inj in H. lia.
  Qed.
  Lemma name_reserved i : reserved (name_at i).
  Proof. unfold name_at, merged_name. eexists. reflexivity. Qed.

  (** what does not depend on fresh names *)
  Record merging_ok (gs : list (list string)) (s : merging) : Prop := {
    mk_sorted : osorted scmp (mg_types s);
    mk_keys : forall n, In n (map fst (mg_types s)) -> In n (map fst (c_types c)) \/ exists i, i < length gs /\ n = name_at i;
    mk_counter : mg_counter s = (k + Z.of_nat (length gs))%Z;
    mk_mapped : forall n, In n (map fst (mg_mapping s)) <-> In n (concat gs);
    mk_nodup : NoDup (map fst (mg_mapping s));
    mk_kept : forall n, In n (map fst (c_types c)) -> In n (map fst (mg_types s))
  }.
  Lemma merge_groups_ok gs2 : forall gs1 s, merging_ok gs1 s -> (forall g, In g gs2 -> g <> [] /\ forall n, In n g -> find_type c n <> None) ->
    merging_ok (gs1 ++ gs2) (fold_left merge_group gs2 s).
  Proof.
    induction gs2 as [|g gs2 IH]; intros gs1 s M G; cbn [fold_left]; [now rewrite app_nil_r|].
    replace (gs1 ++ g :: gs2) with ((gs1 ++ [g]) ++ gs2) by (rewrite <- app_assoc; reflexivity). apply IH; [|intros h H; apply G; now right].
    destruct (G g (or_introl eq_refl)) as [Ne Ex]. rewrite merge_group_eq.
    - rewrite (mk_counter _ _ M). fold (name_at (length gs1)). split; cbn [mg_types mg_mapping mg_counter].
      + apply (osorted_oins scmp scmp_order), M.
      + intros n I. apply in_map_iff in I. destruct I as ([n' x] & <- & I). apply (oins_in scmp scmp_order) in I. cbn [fst]. rewrite app_length. cbn.
        destruct I as [[-> _]|I].
        * right. exists (length gs1). split; [lia|reflexivity].
        * destruct (mk_keys _ _ M n') as [X|(i & Li & X)]; [apply in_map_iff; exists (n', x); auto|auto|]. right. exists i. split; [lia|exact X].
      + rewrite app_length. cbn. lia.
      + intros n. rewrite concat_app, in_app_iff. cbn [concat]. rewrite app_nil_r, <- (mk_mapped _ _ M n).
        generalize (mg_mapping s). clear. induction g as [|x g IH]; intros mp; cbn [fold_left]; [cbn; tauto|]. rewrite IH, aset_keys. cbn [In]. intuition congruence.
      + pose proof (mk_nodup _ _ M) as N. revert N. generalize (mg_mapping s). clear. induction g as [|x g IH]; intros mp N; cbn [fold_left]; [exact N|]. apply IH. now apply aset_nodup.
      + intros n I. apply (mk_kept _ _ M) in I. destruct (oget_key n _ I) as (x & X).
        eapply (key_oget n). instantiate (1 := if String.eqb n (name_at (length gs1)) then _ else x). rewrite oget_oins. destruct (String.eqb n _); [reflexivity|exact X].
    - intros n I. specialize (Ex n I). unfold find_type in Ex. destruct (oget scmp n (c_types c)) as [t|] eqn:O; [|congruence].
      destruct (oget_key n (mg_types s)) as (x & ->); [|discriminate]. apply (mk_kept _ _ M). eapply key_oget; eauto.
    - exact Ne.
  Qed.

  (** with fresh names *)
  Hypothesis fresh : forall i, find_type c (name_at i) = None.
  Record merging_is (gs : list (list string)) (s : merging) : Prop := {
    mi_old : forall n, (forall i, i < length gs -> n <> name_at i) -> oget scmp n (mg_types s) = find_type c n;
    mi_new : forall i g, nth_error gs i = Some g -> oget scmp (name_at i) (mg_types s) = Some (merge_all (parts (c_types c) g) empty_gtype);
    mi_to : forall i g n, nth_error gs i = Some g -> In n g -> aget n (mg_mapping s) = Some (name_at i);
    mi_from : forall n v, aget n (mg_mapping s) = Some v -> exists i g, nth_error gs i = Some g /\ In n g /\ v = name_at i;
    mi_counter : mg_counter s = (k + Z.of_nat (length gs))%Z
  }.
  Lemma parts_ext m m' g : (forall n, In n g -> oget scmp n m = oget scmp n m') -> parts m g = parts m' g.
  Proof. induction g as [|n g IH]; intros H; [reflexivity|]. cbn. rewrite (H n (or_introl eq_refl)), IH; [reflexivity|]. intros x X. apply H. now right. Qed.
  Lemma merge_groups_is gs2 : forall gs1 s, merging_is gs1 s -> NoDup (concat (gs1 ++ gs2)) -> (forall g, In g gs2 -> g <> [] /\ forall n, In n g -> find_type c n <> None) ->
    merging_is (gs1 ++ gs2) (fold_left merge_group gs2 s).
  Proof.
    induction gs2 as [|g gs2 IH]; intros gs1 s M N G; cbn [fold_left]; [now rewrite app_nil_r|].
    replace (gs1 ++ g :: gs2) with ((gs1 ++ [g]) ++ gs2) in * by (rewrite <- app_assoc; reflexivity). apply IH; [|exact N|intros h H; apply G; now right].
    destruct (G g (or_introl eq_refl)) as [Ne Ex].
    assert (Same : forall n, In n g -> oget scmp n (mg_types s) = find_type c n).
    { intros n I. apply (mi_old _ _ M). intros i Li E. apply (Ex n I). rewrite E. apply fresh. }
    rewrite merge_group_eq; [|intros n I; rewrite (Same n I); auto|exact Ne].
    rewrite (mi_counter _ _ M). fold (name_at (length gs1)).
    assert (Nth : forall i h, nth_error (gs1 ++ [g]) i = Some h -> nth_error gs1 i = Some h \/ (i = length gs1 /\ h = g)).
    { intros i h H. destruct (Nat.lt_ge_cases i (length gs1)) as [L|L]; [left; rewrite nth_error_app1 in H; auto|]. right. rewrite nth_error_app2 in H by exact L.
      destruct (i - length gs1) as [|d] eqn:D; cbn in H; [injection H as <-; split; [lia|reflexivity]|]. destruct d; discriminate. }
    assert (Disj : forall i h n, nth_error gs1 i = Some h -> In n h -> In n g -> False).
    { intros i h n H1 H2 H3. rewrite !concat_app in N. cbn [concat] in N. rewrite app_nil_r in N. assert (N1 : NoDup (concat gs1 ++ g)).
      { clear - N. induction (concat gs2) as [|x l IH] using rev_ind; [now rewrite app_nil_r in N|]. apply IH. rewrite app_assoc in N. apply NoDup_remove_1 in N. now rewrite app_nil_r in N. }
      clear - N1 H1 H2 H3. assert (I : In n (concat gs1)) by (apply in_concat; exists h; split; [eapply nth_error_In; eauto|exact H2]).
      clear H1 H2. induction (concat gs1) as [|x l IH]; [destruct I|]. cbn in N1. inversion N1 as [|? ? Nx Nl]; subst. destruct I as [<-|I]; [apply Nx; apply in_app_iff; now right|auto]. }
    split; cbn [mg_types mg_mapping mg_counter].
    - intros n Hn. rewrite oget_oins. destruct (String.eqb_spec n (name_at (length gs1))) as [->|E].
      + exfalso. apply (Hn (length gs1)); [rewrite app_length; cbn; lia|reflexivity].
      + apply (mi_old _ _ M). intros i Li. apply Hn. rewrite app_length. cbn. lia.
    - intros i h H. rewrite oget_oins. destruct (Nth i h H) as [H'|[-> ->]].
      + assert (i < length gs1) by (apply nth_error_Some; congruence). destruct (String.eqb_spec (name_at i) (name_at (length gs1))) as [E|E]; [apply name_at_inj in E; lia|]. now apply (mi_new _ _ M).
      + rewrite String.eqb_refl. do 2 f_equal. apply parts_ext. exact Same.
    - intros i h n H I. rewrite aset_all_get. destruct (Nth i h H) as [H'|[-> ->]].
      + destruct (smem n g) eqn:Sn; [apply smem_In in Sn; exfalso; eapply Disj; eauto|]. eapply (mi_to _ _ M); eauto.
      + apply smem_In in I. now rewrite I.
    - intros n v H. rewrite aset_all_get in H. destruct (smem n g) eqn:Sn.
      + injection H as <-. apply smem_In in Sn. exists (length gs1), g. split; [|auto]. rewrite nth_error_app2 by lia. now rewrite Nat.sub_diag.
      + destruct (mi_from _ _ M n v H) as (i & h & H1 & H2 & H3). exists i, h. split; [|auto]. rewrite nth_error_app1; [exact H1|]. apply nth_error_Some. congruence.
    - rewrite app_length. cbn. lia.
  Qed.
End Round.

(** ** One round *)
Lemma remove_all_get {V} ns : forall (m : list (string * V)) n, oget scmp n (remove_all ns m) = if smem n ns then None else oget scmp n m.
Proof.
  induction ns as [|x ns IH]; intros m n; [reflexivity|]. unfold remove_all. cbn [fold_left]. change (oget scmp n (remove_all ns (odel scmp x m)) = if smem n (x :: ns) then None else oget scmp n m).
  rewrite IH. cbn [smem]. destruct (String.eqb_spec n x) as [->|N].
  - destruct (smem x ns); [reflexivity|]. apply (oget_odel_same scmp).
  - destruct (smem n ns); [reflexivity|]. now apply (oget_odel_other scmp scmp_order).
Qed.
Lemma remove_all_sorted {V} ns : forall (m : list (string * V)), osorted scmp m -> osorted scmp (remove_all ns m).
Proof. induction ns as [|x ns IH]; intros m S; [exact S|]. apply IH. now apply (osorted_odel scmp). Qed.
Lemma map_values_sorted {V W} (f : V -> W) m : osorted scmp m -> osorted scmp (map_values f m).
Proof.
  induction 1 as [|k v t L S IH]; [constructor|]. cbn. constructor; [|exact IH]. intros k' v' I. apply in_map_iff in I. destruct I as ([k0 v0] & E & I). injection E as <- <-. eapply L. exact I.
Qed.
Lemma map_values_keys {V W} (f : V -> W) m : map fst (map_values f m) = map fst m.
Proof. unfold map_values. rewrite map_map. reflexivity. Qed.

Lemma round_inv walk t k c k1 c1 : merge_round walk t k c = Some (inr (k1, c1)) ->
  exists m gs, walk c = Some m /\ group c t m (sort_names (mt_iter m)) (sort_names (mt_iter m)) 0 {| ms_visited := []; ms_cache := [] |} = Some gs /\ gs <> [] /\
    let s := fold_left merge_group gs {| mg_types := c_types c; mg_mapping := []; mg_counter := k |} in
    k1 = mg_counter s /\ c1 = {| c_server := c_server c; c_upstream := c_upstream c; c_schema := c_schema c;
       c_types := remove_all (map fst (mg_mapping s)) (map_values (rename_gtype (mg_mapping s)) (mg_types s));
       c_unions := remove_all (map fst (mg_mapping s)) (map_values (rename_gunion (mg_mapping s)) (c_unions c));
       c_enums := c_enums c; c_links := c_links c; c_telemetry := c_telemetry c |}.
Proof.
  unfold merge_round. destruct (walk c) as [m|]; [|discriminate]. destruct (group c t m _ _ 0 _) as [[|g gs]|] eqn:G; [discriminate| |discriminate].
  set (s := fold_left merge_group (g :: gs) _). intros H. exists m, (g :: gs). split; [reflexivity|]. split; [exact G|]. split; [discriminate|]. cbn zeta. fold s.
  destruct (mg_mapping s) as [|kv mp]; [discriminate|]. injection H as <- <-. split; reflexivity.
Qed.
Lemma round_stop walk t k c c1 : merge_round walk t k c = Some (inl c1) -> c1 = c.
Proof.
  unfold merge_round. destruct (walk c) as [m|]; [|discriminate]. destruct (group c t m _ _ 0 _) as [[|g gs]|]; [congruence| |discriminate].
  cbn zeta. destruct (mg_mapping _); [congruence|discriminate].
Qed.
Lemma groups_fine c t m types l i gs : group c t m types l i {| ms_visited := []; ms_cache := [] |} = Some gs ->
  NoDup (concat gs) /\ forall g, In g gs -> 2 <= length g /\ g <> [] /\ forall n, In n g -> find_type c n <> None.
Proof.
  intros H. destruct (group_ok c t m types (fun _ => True) (fun _ _ => True)) with (l := l) (i := i) (st := {| ms_visited := []; ms_cache := [] |}) (gs := gs) as (N & _ & G); auto.
  split; [exact N|]. intros g I. destruct (G g I) as (L & n1 & _ & _ & E & _). split; [exact L|]. split; [destruct g; [cbn in L; lia|discriminate]|exact E].
Qed.
Lemma start_ok c k : osorted scmp (c_types c) -> merging_ok c k [] {| mg_types := c_types c; mg_mapping := []; mg_counter := k |}.
Proof. intros S. split; cbn; [exact S|auto|lia|tauto|constructor|auto]. Qed.
Lemma concat_length (gs : list (list string)) : (forall g, In g gs -> 2 <= length g) -> 2 * length gs <= length (concat gs).
Proof.
  induction gs as [|g gs IH]; intros H; [cbn; lia|]. cbn [concat length]. rewrite app_length. pose proof (H g (or_introl eq_refl)).
  assert (2 * length gs <= length (concat gs)) by (apply IH; intros h I; apply H; now right). lia.
Qed.
Lemma round_decreases walk t k c k1 c1 : osorted scmp (c_types c) -> merge_round walk t k c = Some (inr (k1, c1)) ->
  length (c_types c1) < length (c_types c) /\ osorted scmp (c_types c1).
Proof.
  intros S H. apply round_inv in H. destruct H as (m & gs & _ & G & Ne & H). cbn zeta in H. destruct H as (_ & ->). cbn [c_types].
  apply groups_fine in G. destruct G as (N & G).
  pose proof (merge_groups_ok c k gs [] _ (start_ok c k S)) as M. cbn [app] in M. specialize (M (fun g I => match G g I with conj _ X => X end)).
  set (s := fold_left merge_group gs _) in *. split; [|apply remove_all_sorted, map_values_sorted, (mk_sorted _ _ _ _ M)].
  set (types1 := remove_all _ _). assert (S1 : osorted scmp types1) by (apply remove_all_sorted, map_values_sorted, (mk_sorted _ _ _ _ M)).
  assert (I1 : forall n, In n (map fst types1) -> In n (map fst (mg_types s)) /\ ~ In n (concat gs)).
  { intros n I. destruct (oget_key n _ I) as (x & X). unfold types1 in X. rewrite remove_all_get in X. destruct (smem n _) eqn:Sm; [discriminate|]. apply smem_false in Sm.
    split; [|now rewrite <- (mk_mapped _ _ _ _ M n)]. apply key_oget in X. now rewrite map_values_keys in X. }
  assert (C : incl (concat gs) (map fst (c_types c))).
  { intros n I. apply in_concat in I. destruct I as (g & Ig & I). destruct (G g Ig) as (_ & _ & Ex). specialize (Ex n I). destruct (find_type c n) eqn:F; [|congruence]. eapply key_oget; eauto. }
  (* the keys that remain, with those merged, are at most the old ones and the new *)
  assert (L : length (map fst types1 ++ concat gs) <= length (map fst (c_types c) ++ map (name_at k) (seq 0 (length gs)))).
  { apply NoDup_incl_length.
    - apply NoDup_app_intro; [apply (osorted_nodup scmp scmp_order), S1|exact N|]. intros x X. exact (proj2 (I1 x X)).
    - intros n I. apply in_app_iff. apply in_app_iff in I. destruct I as [I|I]; [|left; now apply C].
      destruct (mk_keys _ _ _ _ M n (proj1 (I1 n I))) as [X|(i & Li & ->)]; [now left|]. right. apply in_map. apply in_seq. lia. }
  rewrite !app_length, !map_length, seq_length in L.
  pose proof (concat_length gs (fun g I => match G g I with conj X _ => X end)). assert (length gs <> 0) by (destruct gs; [congruence|cbn; lia]). lia.
Qed.

(** ** Two rounds are as one *)
Lemma typ_under_trans s1 s2 t : typ_under s2 (typ_under s1 t) = typ_under (fun n => s2 (s1 n)) t.
Proof. induction t as [n b|t IH b]; cbn; [reflexivity|now rewrite IH]. Qed.
Lemma type_name_under s t : type_name (typ_under s t) = s (type_name t).
Proof. induction t as [n b|t IH b]; cbn; [reflexivity|exact IH]. Qed.
Lemma args_under_trans s1 s2 l : args_under s2 (args_under s1 l) = args_under (fun n => s2 (s1 n)) l.
Proof. unfold args_under. rewrite map_map. apply map_ext. intros [k a]. cbn. now rewrite typ_under_trans. Qed.
Lemma same_trans s1 s2 x y z : same_but_type s1 x y -> same_but_type s2 y z -> same_but_type (fun n => s2 (s1 n)) x z.
Proof.
  intros (A1 & A2 & A3 & A4 & A5 & A6 & A7 & A8 & A9 & A10) (B1 & B2 & B3 & B4 & B5 & B6 & B7 & B8 & B9 & B10).
  unfold same_but_type. rewrite <- args_under_trans, <- A1. repeat split; congruence.
Qed.
Lemma merged_refl c : merged_by (fun n => n) c c.
Proof.
  split; auto.
  - intros n' H. exists n'. auto.
  - intros n f x H. exists x. exact H.
  - intros n' f x' H. exists n', x'. split; [reflexivity|]. split; [exact H|].
    assert (Ty : forall t, typ_under (fun n => n) t = t) by (induction t; cbn; congruence).
    split; [|left; now rewrite Ty]. unfold same_but_type. repeat split. unfold args_under. symmetry. erewrite map_ext; [apply map_id|]. intros [k a]. cbn. rewrite Ty. now destruct a.
  - intros n' f x' H. split; [intros E; exists n', x'; auto|]. intros (n & x & -> & H' & E). destruct H as (t & T & O), H' as (t' & T' & O'). congruence.
  - intros n' t' H i'. split; [intros I; exists n', t', i'; auto|]. intros (n & t & i & -> & T & I & ->). congruence.
  - intros u. destruct (find_union c u); [|exact Logic.I]. split; [|reflexivity]. intros m'. split; [intros I; exists m'; auto|]. intros (m & I & ->). exact I.
  - repeat split.
Qed.
Lemma merged_trans s1 s2 c c1 c2 : merged_by s1 c c1 -> merged_by s2 c1 c2 -> merged_by (fun n => s2 (s1 n)) c c2.
Proof.
  intros A B. split.
  - intros n H. apply (mb_types _ _ _ B), (mb_types _ _ _ A), H.
  - intros n' H. destruct (mb_no_more _ _ _ B n' H) as (n1 & H1 & <-). destruct (mb_no_more _ _ _ A n1 H1) as (n & H0 & <-). exists n. auto.
  - intros n. destruct (mb_names _ _ _ A n) as [E|[U R]].
    + rewrite E. destruct (mb_names _ _ _ B n) as [E2|[U2 R2]]; [auto|]. right. split; [|exact R2]. destruct U2 as [U2|U2]; [|auto].
      destruct (mb_no_more _ _ _ A n U2) as (m & M & Em). destruct (mb_names _ _ _ A m) as [E3|[_ R3]]; [left; congruence|right; congruence].
    + right. split; [exact U|]. destruct (mb_names _ _ _ B (s1 n)) as [E2|[_ R2]]; [now rewrite E2|exact R2].
  - intros n f x H. destruct (mb_kept _ _ _ A n f x H) as (x1 & H1). exact (mb_kept _ _ _ B _ _ _ H1).
  - intros n' f x' H. destruct (mb_field _ _ _ B n' f x' H) as (n1 & x1 & <- & H1 & S1 & T1). destruct (mb_field _ _ _ A n1 f x1 H1) as (n & x & <- & H0 & S0 & T0).
    exists n, x. split; [reflexivity|]. split; [exact H0|]. split; [eapply same_trans; eauto|]. destruct T1 as [T1|T1]; [|auto]. destruct T0 as [T0|T0].
    + left. now rewrite T1, T0, typ_under_trans.
    + right. apply (mb_json _ _ _ B _ _ _ H). exists (s1 n), x1. auto.
  - intros n' f x' H. rewrite (mb_json _ _ _ B n' f x' H). split.
    + intros (n1 & x1 & <- & H1 & J). apply (mb_json _ _ _ A n1 f x1 H1) in J. destruct J as (n & x & <- & H0 & J). exists n, x. auto.
    + intros (n & x & <- & H0 & J). destruct (mb_kept _ _ _ A n f x H0) as (x1 & H1). exists (s1 n), x1. split; [reflexivity|]. split; [exact H1|].
      apply (mb_json _ _ _ A _ _ _ H1). exists n, x. auto.
  - intros n' t' H i'. rewrite (mb_implements _ _ _ B n' t' H i'). split.
    + intros (n1 & t1 & i1 & <- & T1 & I1 & <-). apply (mb_implements _ _ _ A n1 t1 T1) in I1. destruct I1 as (n & t & i & <- & T & I & <-). exists n, t, i. auto.
    + intros (n & t & i & <- & T & I & <-). destruct (find_type c1 (s1 n)) as [t1|] eqn:T1; [|exfalso; revert T1; apply (mb_types _ _ _ A); congruence].
      exists (s1 n), t1, (s1 i). repeat split; auto. apply (mb_implements _ _ _ A (s1 n) t1 T1). exists n, t, i. auto.
  - intros u. pose proof (mb_unions _ _ _ A u) as U1. pose proof (mb_unions _ _ _ B u) as U2.
    destruct (find_union c u) as [x|], (find_union c1 u) as [x1|], (find_union c2 u) as [x2|]; try contradiction; auto.
    destruct U1 as [U1 D1], U2 as [U2 D2]. split; [|congruence]. intros m'. rewrite U2. split.
    + intros (m1 & I1 & <-). apply U1 in I1. destruct I1 as (m & I & <-). exists m. auto.
    + intros (m & I & <-). exists (s1 m). split; [apply U1; exists m; auto|reflexivity].
  - destruct (mb_rest _ _ _ A) as (A1 & A2 & A3 & A4 & A5 & A6), (mb_rest _ _ _ B) as (B1 & B2 & B3 & B4 & B5 & B6). repeat split; congruence.
Qed.
