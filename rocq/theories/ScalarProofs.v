(** Proofs for C58. *)
From Coq Require Import String Ascii ZArith NArith Bool Lia List.
From Verif Require Import Base BaseFacts StringFacts JsonModel JsonProofs TypeModel IrModel IrProofs PlanModel PlanSpec ScalarModel ScalarSpec.
Import ListNotations.
Open Scope list_scope.
Open Scope string_scope.

(** Texts of integers. *)
Lemma digit_iff c d : In (c, d) digits <-> ((48 <=? N_of_ascii c) && (N_of_ascii c <=? 57))%N%bool = true /\ d = Z.of_N (N_of_ascii c - 48).
Proof.
  split.
  - intros I. cbn in I. repeat (destruct I as [[= <- <-]|I]; [split; reflexivity|]). destruct I.
  - intros [H ->]. destruct c as [[] [] [] [] [] [] [] []]; vm_compute in H; try discriminate H; cbn; tauto.
Qed.
Lemma natural_one c d s z : In (c, d) digits -> natural s z -> exists w, natural (String c s) w.
Proof.
  intros I N. induction N as [e x J|s z e x N [w IH] J].
  - exists (10 * d + x)%Z. exact (nat_more (String c "") d e x (nat_digit c d I) J).
  - exists (10 * w + x)%Z. exact (nat_more (String c s) w e x IH J).
Qed.
Lemma str_snoc_ind (P : string -> Prop) : P "" -> (forall s c, P s -> P (s ++ String c "")) -> forall s, P s.
Proof.
  intros H0 H1 s. assert (G : forall l, P (string_of_list_ascii (rev l))).
  { induction l as [|c l IH]; [exact H0|]. cbn [rev]. replace (string_of_list_ascii (rev l ++ [c])%list) with (string_of_list_ascii (rev l) ++ String c ""); [now apply H1|].
    generalize (rev l). intros m. induction m as [|d m IHm]; [reflexivity|]. cbn. now rewrite IHm. }
  specialize (G (rev (list_ascii_of_string s))). rewrite rev_involutive in G. now rewrite string_of_list_ascii_of_string in G.
Qed.
Lemma digits_value_snoc s c : forall acc, digits_value acc (s ++ String c "") =
  match digits_value acc s with
  | Some z => if ((48 <=? N_of_ascii c) && (N_of_ascii c <=? 57))%N%bool then Some (10 * z + Z.of_N (N_of_ascii c - 48))%Z else None
  | None => None
  end.
Proof.
  induction s as [|d s IH]; intros acc; [reflexivity|]. cbn [String.append digits_value].
  destruct ((48 <=? N_of_ascii d)%N && (N_of_ascii d <=? 57)%N)%bool; [apply IH|reflexivity].
Qed.
Lemma str_snoc_inj s t c d : s ++ String c "" = t ++ String d "" -> s = t /\ c = d.
Proof.
  revert t. induction s as [|a s IH]; intros [|b t] H; cbn in H.
  - injection H as ->. auto.
  - injection H as _ H. destruct t; discriminate H.
  - injection H as _ H. destruct s; discriminate H.
  - injection H as -> H. apply IH in H as [-> ->]. auto.
Qed.
Lemma natural_iff s : forall z, unsigned_value s = Some z <-> natural s z.
Proof.
  induction s as [|s c IH] using str_snoc_ind; intros z.
  - cbn. split; [discriminate|]. intros N. inversion N as [|s' z' c d N' J E]; destruct s'; discriminate E.
  - assert (U : unsigned_value (s ++ String c "") = digits_value 0 (s ++ String c "")) by (destruct s; reflexivity).
    rewrite U, digits_value_snoc. split.
    + intros H. destruct s as [|a s].
      * cbn [digits_value] in H. destruct ((48 <=? N_of_ascii c)%N && (N_of_ascii c <=? 57)%N)%bool eqn:D; [|discriminate].
        injection H as <-. apply (nat_digit c). apply digit_iff. split; [exact D|lia].
      * change (digits_value 0 (String a s)) with (unsigned_value (String a s)) in H. destruct (unsigned_value (String a s)) as [w|] eqn:E; [|discriminate].
        destruct ((48 <=? N_of_ascii c)%N && (N_of_ascii c <=? 57)%N)%bool eqn:D; [|discriminate]. injection H as <-.
        apply nat_more; [now apply IH|]. apply digit_iff. auto.
    + intros N. inversion N as [c' d J E|s' z' c' d N' J E].
      * destruct s as [|a s]; [|destruct s; discriminate E]. cbn in E. injection E as <-. subst d. apply digit_iff in J as [D ->].
        cbn [digits_value]. rewrite D. reflexivity.
      * apply str_snoc_inj in E as [-> ->]. apply IH in N'. destruct s as [|a s]; [discriminate|].
        change (digits_value 0 (String a s)) with (unsigned_value (String a s)). rewrite N'. apply digit_iff in J as [D ->]. now rewrite D.
Qed.

Lemma natural_sign s z : natural s z -> forall c t, s = String c t -> c <> "+"%char /\ c <> "-"%char.
Proof.
  induction 1 as [c d I|s z c d N IH I]; intros e t E.
  - injection E as <- _. apply digit_iff in I as [D _]. split; intros ->; discriminate D.
  - destruct s as [|a s]; cbn in E; injection E as <- _; [|exact (IH a s eq_refl)]. apply digit_iff in I as [D _]. split; intros ->; discriminate D.
Qed.
Lemma natural_nonneg s z : natural s z -> (0 <= z)%Z.
Proof.
  assert (D : forall c d, In (c, d) digits -> (0 <= d)%Z) by (intros c d I; apply digit_iff in I as [_ ->]; lia).
  induction 1 as [c d I|s z c d N IH I]; [exact (D c d I)|]. specialize (D c d I). lia.
Qed.
Lemma parse_signed lo hi s : parse_integer true lo hi s = true <-> exists z, integer s z /\ (lo <= z <= hi)%Z.
Proof.
  assert (B : forall z, ((lo <=? z) && (z <=? hi))%Z%bool = true <-> (lo <= z <= hi)%Z) by (intros z; rewrite andb_true_iff; lia).
  unfold parse_integer. split.
  - intros H. destruct s as [|c t]; [discriminate|].
    destruct (Ascii.eqb_spec c "+") as [->|P]; [|destruct (Ascii.eqb_spec c "-") as [->|M]].
    + destruct (unsigned_value t) as [z|] eqn:E; [|discriminate]. exists z. apply natural_iff in E. split; [now constructor|now apply B].
    + cbn [option_map] in H. destruct (unsigned_value t) as [z|] eqn:E; [|discriminate]. exists (- z)%Z. apply natural_iff in E. split; [now constructor|now apply B].
    + replace (match String c t with String "+" t => unsigned_value t | String "-" t => option_map Z.opp (unsigned_value t) | _ => unsigned_value (String c t) end)
        with (unsigned_value (String c t)) in H.
      2:{ destruct c as [[] [] [] [] [] [] [] []]; try reflexivity; congruence. }
      destruct (unsigned_value (String c t)) as [z|] eqn:E; [|discriminate]. exists z. apply natural_iff in E. split; [now constructor|now apply B].
  - intros (z & I & R). apply B in R. inversion I as [s' z' N|s' z' N|s' z' N]; subst.
    + replace (match s with String "+" t => unsigned_value t | String "-" t => option_map Z.opp (unsigned_value t) | _ => unsigned_value s end)
        with (unsigned_value s).
      2:{ destruct s as [|c t]; [reflexivity|]. destruct (natural_sign _ _ N c t eq_refl) as [P M].
          destruct c as [[] [] [] [] [] [] [] []]; try reflexivity; congruence. }
      apply natural_iff in N. now rewrite N.
    + apply natural_iff in N. rewrite N. exact R.
    + apply natural_iff in N. rewrite N. exact R.
Qed.
Lemma parse_unsigned hi s : parse_integer false 0 hi s = true <->
  exists z, integer s z /\ (0 <= z <= hi)%Z /\ forall t, s <> String "-" t.
Proof.
  assert (B : forall z, ((0 <=? z) && (z <=? hi))%Z%bool = true <-> (0 <= z <= hi)%Z) by (intros z; rewrite andb_true_iff; lia).
  unfold parse_integer. split.
  - intros H. destruct s as [|c t]; [discriminate|].
    destruct (Ascii.eqb_spec c "+") as [->|P]; [|destruct (Ascii.eqb_spec c "-") as [->|M]].
    + destruct (unsigned_value t) as [z|] eqn:E; [|discriminate]. exists z. apply natural_iff in E. split; [now constructor|]. split; [now apply B|discriminate].
    + discriminate.
    + replace (match String c t with String "+" t => unsigned_value t | String "-" _ => None | _ => unsigned_value (String c t) end)
        with (unsigned_value (String c t)) in H.
      2:{ destruct c as [[] [] [] [] [] [] [] []]; try reflexivity; congruence. }
      destruct (unsigned_value (String c t)) as [z|] eqn:E; [|discriminate]. exists z. apply natural_iff in E. split; [now constructor|]. split; [now apply B|congruence].
  - intros (z & I & R & Q). apply B in R. inversion I as [s' z' N|s' z' N|s' z' N]; subst.
    + replace (match s with String "+" t => unsigned_value t | String "-" _ => None | _ => unsigned_value s end)
        with (unsigned_value s).
      2:{ destruct s as [|c t]; [reflexivity|]. destruct (natural_sign _ _ N c t eq_refl) as [P M].
          destruct c as [[] [] [] [] [] [] [] []]; try reflexivity; congruence. }
      apply natural_iff in N. now rewrite N.
    + apply natural_iff in N. rewrite N. exact R.
    + now destruct (Q s').
Qed.

Section Validate.
  Variables email phone rfc3339 url : string -> bool.
  Notation valid := (validate_named email phone rfc3339 url).

  Lemma text_iff v f : eval_str v f = true <-> exists s, v = VStr s /\ f s = true.
  Proof.
    unfold eval_str. split.
    - destruct v; cbn; try discriminate. intros H. eauto.
    - intros (s & -> & H). exact H.
  Qed.
  Lemma signed_iff v lo hi : (- 2 ^ 63 <= lo)%Z -> (hi < 2 ^ 63)%Z ->
    (eval_signed v lo hi = true <-> exists z, v = VNum (NInt z) /\ (lo <= z <= hi)%Z).
  Proof.
    intros L H. unfold eval_signed. split.
    - destruct v as [| |[z|]| | | |]; cbn [as_i64]; try discriminate. destruct ((- 2 ^ 63 <=? z) && (z <? 2 ^ 63))%Z%bool; [|discriminate].
      rewrite andb_true_iff. intros [A B]. exists z. split; [reflexivity|lia].
    - intros (z & -> & R). cbn [as_i64]. replace ((- 2 ^ 63 <=? z) && (z <? 2 ^ 63))%Z%bool with true.
      + apply andb_true_iff. lia.
      + symmetry. apply andb_true_iff. split; [apply Z.leb_le|apply Z.ltb_lt]; lia.
  Qed.
  Lemma unsigned_iff v hi : (hi < 2 ^ 64)%Z ->
    (eval_unsigned v hi = true <-> exists z, v = VNum (NInt z) /\ (0 <= z <= hi)%Z).
  Proof.
    intros H. unfold eval_unsigned. split.
    - destruct v as [| |[z|]| | | |]; cbn [as_u64]; try discriminate. destruct ((0 <=? z) && (z <? 2 ^ 64))%Z%bool eqn:E; [|discriminate].
      apply andb_true_iff in E as [A _]. intros B. exists z. split; [reflexivity|lia].
    - intros (z & -> & R). cbn [as_u64]. replace ((0 <=? z) && (z <? 2 ^ 64))%Z%bool with true; [apply Z.leb_le; lia|].
      symmetry. apply andb_true_iff. split; [apply Z.leb_le|apply Z.ltb_lt]; lia.
  Qed.

  Lemma small_integers v :
    (valid "Int8" v = true <-> exists z, v = VNum (NInt z) /\ signed 8 z) /\
    (valid "Int16" v = true <-> exists z, v = VNum (NInt z) /\ signed 16 z) /\
    (valid "Int32" v = true <-> exists z, v = VNum (NInt z) /\ signed 32 z) /\
    (valid "UInt8" v = true <-> exists z, v = VNum (NInt z) /\ unsigned 8 z) /\
    (valid "UInt16" v = true <-> exists z, v = VNum (NInt z) /\ unsigned 16 z) /\
    (valid "UInt32" v = true <-> exists z, v = VNum (NInt z) /\ unsigned 32 z).
  Proof.
    unfold validate_named, signed, unsigned. cbn [find_scalar custom_scalars aget String.eqb Ascii.eqb Bool.eqb].
    refine (conj _ (conj _ (conj _ (conj _ (conj _ _))))).
    1: change (eval_signed v (- 2 ^ 7) (2 ^ 7 - 1) = true <-> exists z, v = VNum (NInt z) /\ (- 2 ^ (8 - 1) <= z < 2 ^ (8 - 1))%Z).
    2: change (eval_signed v (- 2 ^ 15) (2 ^ 15 - 1) = true <-> exists z, v = VNum (NInt z) /\ (- 2 ^ (16 - 1) <= z < 2 ^ (16 - 1))%Z).
    3: change (eval_signed v (- 2 ^ 31) (2 ^ 31 - 1) = true <-> exists z, v = VNum (NInt z) /\ (- 2 ^ (32 - 1) <= z < 2 ^ (32 - 1))%Z).
    1-3: rewrite signed_iff by lia; split; intros (z & -> & R); exists z; (split; [reflexivity|lia]).
    1: change (eval_unsigned v (2 ^ 8 - 1) = true <-> exists z, v = VNum (NInt z) /\ (0 <= z < 2 ^ 8)%Z).
    2: change (eval_unsigned v (2 ^ 16 - 1) = true <-> exists z, v = VNum (NInt z) /\ (0 <= z < 2 ^ 16)%Z).
    3: change (eval_unsigned v (2 ^ 32 - 1) = true <-> exists z, v = VNum (NInt z) /\ (0 <= z < 2 ^ 32)%Z).
    all: rewrite unsigned_iff by lia; split; intros (z & -> & R); exists z; (split; [reflexivity|lia]).
  Qed.
  Lemma big_integers v :
    (valid "Int64" v = true <-> exists s z, v = VStr s /\ integer s z /\ signed 64 z) /\
    (valid "Int128" v = true <-> exists s z, v = VStr s /\ integer s z /\ signed 128 z) /\
    (valid "UInt64" v = true <-> exists s z, v = VStr s /\ integer s z /\ unsigned 64 z /\ forall t, s <> String "-" t) /\
    (valid "UInt128" v = true <-> exists s z, v = VStr s /\ integer s z /\ unsigned 128 z /\ forall t, s <> String "-" t).
  Proof.
    unfold signed, unsigned. refine (conj _ (conj _ (conj _ _))).
    1: change (eval_str v (parse_integer true (- 2 ^ 63) (2 ^ 63 - 1)) = true <-> exists s z, v = VStr s /\ integer s z /\ (- 2 ^ (64 - 1) <= z < 2 ^ (64 - 1))%Z).
    2: change (eval_str v (parse_integer true (- 2 ^ 127) (2 ^ 127 - 1)) = true <-> exists s z, v = VStr s /\ integer s z /\ (- 2 ^ (128 - 1) <= z < 2 ^ (128 - 1))%Z).
    1-2: rewrite text_iff; split; [intros (s & -> & H); apply parse_signed in H as (z & I & R); exists s, z|
           intros (s & z & -> & I & R); exists s; split; [reflexivity|]; apply parse_signed; exists z];
         repeat split; try exact I; lia.
    1: change (eval_str v (parse_integer false 0 (2 ^ 64 - 1)) = true <-> exists s z, v = VStr s /\ integer s z /\ (0 <= z < 2 ^ 64)%Z /\ forall t, s <> String "-" t).
    2: change (eval_str v (parse_integer false 0 (2 ^ 128 - 1)) = true <-> exists s z, v = VStr s /\ integer s z /\ (0 <= z < 2 ^ 128)%Z /\ forall t, s <> String "-" t).
    all: rewrite text_iff; split; [intros (s & -> & H); apply parse_unsigned in H as (z & I & R & Q); exists s, z|
           intros (s & z & -> & I & R & Q); exists s; split; [reflexivity|]; apply parse_unsigned; exists z];
         refine (conj _ _) || idtac; try exact I; try reflexivity.
    all: repeat match goal with |- _ /\ _ => split end; try exact I; try exact Q; try reflexivity; lia.
  Qed.
  Lemma texts v :
    (valid "Email" v = true <-> exists s, v = VStr s /\ email s = true) /\
    (valid "PhoneNumber" v = true <-> exists s, v = VStr s /\ phone s = true) /\
    (valid "Date" v = true <-> exists s, v = VStr s /\ rfc3339 s = true) /\
    (valid "DateTime" v = true <-> exists s, v = VStr s /\ rfc3339 s = true) /\
    (valid "Url" v = true <-> exists s, v = VStr s /\ url s = true) /\
    (valid "Bytes" v = true <-> exists s, v = VStr s).
  Proof.
    refine (conj _ (conj _ (conj _ (conj _ (conj _ _))))); try apply (text_iff v).
    unfold validate_named. cbn. split; [destruct v; cbn; try discriminate; eauto|intros (s & ->); reflexivity].
  Qed.
  Lemma no_rule name v : ~ In name (map fst custom_scalars) \/ name = "JSON" \/ name = "Empty" -> valid name v = true.
  Proof.
    intros [N|[->| ->]]; [|reflexivity|reflexivity]. unfold validate_named, find_scalar.
    replace (aget name custom_scalars) with (@None scalar); [reflexivity|]. symmetry. now apply aget_None.
  Qed.

  (** In a response. *)
  Lemma scalar_answer {IR E} implements enum_value vars (st : nat -> option (result value E)) (node : pfield IR) v dp out name :
    Answer implements valid enum_value vars st node v dp out -> p_scalar node = Some name -> out = VNull \/ valid name out = true.
  Proof.
    intros A Sc. inversion A as [?|? ? ? L N C|? ? ? L|? ? ? ? L|? ? ? ? L]; subst; [now left| | | |].
    - right. unfold Conforms in C. now rewrite Sc in C.
    - destruct L. left. congruence.
    - destruct L. left. congruence.
    - destruct L. left. congruence.
  Qed.
End Validate.

(** Enums. *)
Lemma options_iff v s : In s (options v) <-> exists l, n_alias v = Some l /\ In s l.
Proof.
  unfold options. destruct (n_alias v) as [l|]; split.
  - intros I. eauto.
  - intros (l' & [= <-] & I). exact I.
  - intros [].
  - intros (l & [=] & _).
Qed.
Lemma enum_value_iff variants s : validate_enum_value variants s = true <-> exists n, stands_for variants s n.
Proof.
  unfold validate_enum_value, stands_for. rewrite existsb_exists. split.
  - intros (v & I & H). exists (n_name v), v. split; [exact I|]. split; [reflexivity|]. apply orb_true_iff in H as [H|H].
    + apply String.eqb_eq in H. now left.
    + apply smem_In in H. right. now apply options_iff.
  - intros (n & v & I & <- & [-> | H]); exists v; (split; [exact I|]); apply orb_true_iff.
    + left. apply String.eqb_refl.
    + right. apply smem_In. now apply options_iff.
Qed.
Lemma aget_options (n : string) l s : forall m : list (string * string), aget s (fold_left (fun m o => aset o n m) l m) = if smem s l then Some n else aget s m.
Proof.
  induction l as [|o l IH]; intros m; [reflexivity|]. cbn [fold_left smem]. rewrite IH, aget_aset.
  destruct (String.eqb s o); destruct (smem s l); reflexivity.
Qed.
Lemma alias_step variants : forall (m : list (string * string)) s,
  aget s (fold_left (fun m v => fold_left (fun m o => aset o (n_name v) m) (options v) (aset (n_name v) (n_name v) m)) variants m) =
  match find (fun v => (smem s (options v) || String.eqb s (n_name v))%bool) (rev variants) with
  | Some v => Some (n_name v)
  | None => aget s m
  end.
Proof.
  induction variants as [|v l IH]; intros m s; [reflexivity|]. cbn [fold_left rev]. rewrite IH.
  assert (F : forall (p : variant -> bool) a b, find p (a ++ [b])%list = match find p a with Some x => Some x | None => if p b then Some b else None end).
  { intros p a b. induction a as [|x a IHa]; cbn; [reflexivity|]. destruct (p x); [reflexivity|exact IHa]. }
  rewrite F. destruct (find _ (rev l)); [reflexivity|]. rewrite aget_options, aget_aset.
  destruct (smem s (options v)); cbn [orb]; [reflexivity|]. destruct (String.eqb_spec s (n_name v)); reflexivity.
Qed.
Lemma alias_sound variants s n : aget s (alias_map variants) = Some n -> stands_for variants s n.
Proof.
  unfold alias_map. rewrite alias_step. destruct (find _ _) as [v|] eqn:F; [|discriminate]. intros [= <-].
  apply find_some in F as [I H]. apply in_rev in I. exists v. split; [exact I|]. split; [reflexivity|].
  apply orb_true_iff in H as [H|H]; [right; apply options_iff; now apply smem_In|left; now apply String.eqb_eq].
Qed.
Lemma alias_complete variants s n : stands_for variants s n -> exists n', aget s (alias_map variants) = Some n'.
Proof.
  intros (v & I & <- & H). unfold alias_map. rewrite alias_step. destruct (find _ _) as [w|] eqn:F; [eauto|].
  exfalso. apply in_rev in I. pose proof (find_none _ _ F v I) as X. apply orb_false_iff in X as [X1 X2]. destruct H as [-> | H].
  - now rewrite String.eqb_refl in X2.
  - apply options_iff, smem_In in H. congruence.
Qed.

Lemma mapped_sound {F} variants : forall v w, map_enum (F := F) (alias_map variants) v = Ok w -> named variants v w.
Proof.
  induction v as [| | | | |l IH|m IHm] using value_ind'; intros w H; cbn in H; try discriminate.
  - injection H as <-. constructor.
  - destruct (aget s (alias_map variants)) as [n|] eqn:E; [|discriminate]. injection H as <-. constructor. now apply alias_sound.
  - change (map_enum (F := F) (alias_map variants) (VList l) = Ok w) in H. rewrite map_enum_list in H.
    destruct (mapM (map_enum (alias_map variants)) l) as [l'|er] eqn:E; [|discriminate]. injection H as <-. constructor.
    revert l' E. induction IH as [|x l Hx Hl IHl]; intros l' E; cbn in E; [injection E as <-; constructor|].
    destruct (map_enum (alias_map variants) x) as [y|er] eqn:Ex; [|discriminate]. cbn in E.
    destruct (mapM (map_enum (alias_map variants)) l) as [ys|er] eqn:El; [|discriminate]. injection E as <-. constructor; auto.
Qed.
Lemma mapped_complete {F} variants : unambiguous variants -> forall v w, named variants v w -> map_enum (F := F) (alias_map variants) v = Ok w.
Proof.
  intros U. induction v as [| | |s| |l IH|m IHm] using value_ind'; intros w N; inversion N as [|s' nm St|l0 l' Fl]; subst.
  - reflexivity.
  - cbn. destruct (alias_complete variants s nm St) as (n' & E). rewrite E. apply alias_sound in E. now rewrite (U s n' nm E St).
  - rewrite map_enum_list. enough (G : mapM (map_enum (F := F) (alias_map variants)) l = Ok l') by now rewrite G.
    clear N. revert l' Fl. induction IH as [|x l Hx Hl IHl]; intros l' Fl; inversion Fl as [|? y ? ys Ny Nys]; subst; [reflexivity|].
    cbn. rewrite (Hx y Ny). cbn. now rewrite (IHl ys Nys).
Qed.
