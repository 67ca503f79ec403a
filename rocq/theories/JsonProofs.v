(** Proofs about JSON accessors. *)
From Coq Require Import String Ascii ZArith NArith Bool Lia List.
From Verif Require Import Base BaseFacts JsonModel JsonSpec.
Import ListNotations.
Open Scope string_scope.
Open Scope list_scope.

(** Induction principle through the nested lists. *)
Section ValueInd.
  Variable P : value -> Prop.
  Hypothesis Hnull : P VNull.
  Hypothesis Hbool : forall b, P (VBool b).
  Hypothesis Hnum : forall n, P (VNum n).
  Hypothesis Hstr : forall s, P (VStr s).
  Hypothesis Henum : forall s, P (VEnum s).
  Hypothesis Hlist : forall l, Forall P l -> P (VList l).
  Hypothesis Hobj : forall m, Forall (fun kv => P (snd kv)) m -> P (VObj m).

  Fixpoint value_ind' (v : value) : P v :=
    match v with
    | VNull => Hnull
    | VBool b => Hbool b
    | VNum n => Hnum n
    | VStr s => Hstr s
    | VEnum s => Henum s
    | VList l =>
        Hlist l ((fix go (l : list value) : Forall P l :=
                    match l with
                    | [] => Forall_nil _
                    | x :: t => Forall_cons x (value_ind' x) (go t)
                    end) l)
    | VObj m =>
        Hobj m ((fix go (m : list (string * value)) : Forall (fun kv => P (snd kv)) m :=
                   match m with
                   | [] => Forall_nil _
                   | x :: t => Forall_cons x (value_ind' (snd x)) (go t)
                   end) m)
    end.
End ValueInd.

(* ---------- decimal index parsing ---------- *)

Lemma digit_value_spec c d :
  digit_value c = Some d <-> (d < 10)%N /\ c = ascii_of_N (48 + d).
Proof.
  unfold digit_value. split.
  - destruct (N.leb 48 (N_of_ascii c) && N.leb (N_of_ascii c) 57)%bool eqn:E; [|discriminate].
    apply andb_prop in E as [E1 E2]. apply N.leb_le in E1, E2.
    intros [= <-]. split; [lia|].
    replace (48 + (N_of_ascii c - 48))%N with (N_of_ascii c) by lia.
    symmetry; apply ascii_N_embedding.
  - intros [Hd ->]. rewrite N_ascii_embedding by lia.
    destruct (N.leb 48 (48 + d) && N.leb (48 + d) 57)%bool eqn:E.
    + f_equal. lia.
    + apply andb_false_iff in E as [E|E]; apply N.leb_gt in E; lia.
Qed.

(** digits read left to right, starting from an accumulator *)
Fixpoint digits_from (acc : N) (s : string) : option N :=
  match s with
  | EmptyString => Some acc
  | String c t => match digit_value c with
                  | Some d => digits_from (10 * acc + d) t
                  | None => None
                  end
  end.

Lemma digits_from_ge s : forall acc n, digits_from acc s = Some n -> (acc <= n)%N.
Proof.
  induction s as [|c t IH]; cbn [digits_from]; intros acc n H.
  - injection H as <-. lia.
  - destruct (digit_value c); [|discriminate]. apply IH in H. lia.
Qed.

Lemma parse_digits_from s : forall acc n,
    (acc < 2 ^ 64)%N ->
    (parse_digits s acc = Some n <-> digits_from acc s = Some n /\ (n < 2 ^ 64)%N).
Proof.
  induction s as [|c t IH]; intros acc n Hacc; cbn [parse_digits digits_from].
  - split; [intros [= <-]; auto|intros [H _]; exact H].
  - destruct (digit_value c) as [d|]; [|split; [discriminate|intros [H _]; discriminate]].
    destruct (N.ltb_spec (10 * acc + d) (2 ^ 64)) as [L|L].
    + apply IH. exact L.
    + split; [discriminate|]. intros [H1 H2]. apply digits_from_ge in H1.
      exfalso. apply (N.lt_irrefl n). eapply N.lt_le_trans; [exact H2|].
      eapply N.le_trans; [exact L|exact H1].
Qed.

Lemma string_app_cons c s t : (String c s ++ t)%string = String c (s ++ t)%string.
Proof. reflexivity. Qed.

Lemma digits_from_app s t : forall acc,
    digits_from acc (s ++ t) = match digits_from acc s with
                               | Some a => digits_from a t
                               | None => None
                               end.
Proof.
  induction s as [|c s IH]; intros acc; simpl; [reflexivity|].
  destruct (digit_value c); auto.
Qed.

Lemma digits_sound s n : digits s n -> s <> ""%string /\ digits_from 0 s = Some n.
Proof.
  induction 1 as [c d Hd Hc|s n c d H [IH1 IH2] Hd Hc].
  - split; [discriminate|]. cbn [digits_from].
    rewrite (proj2 (digit_value_spec c d)) by auto. reflexivity.
  - split; [destruct s; discriminate|].
    rewrite digits_from_app, IH2. cbn [digits_from].
    rewrite (proj2 (digit_value_spec c d)) by auto. reflexivity.
Qed.

Lemma digits_ext s : forall p acc n,
    digits p acc -> digits_from acc s = Some n -> digits (p ++ s) n.
Proof.
  induction s as [|c t IH]; cbn [digits_from]; intros p acc n Hp H.
  - injection H as <-.
    assert (E : (p ++ "")%string = p) by (clear; induction p; simpl; congruence).
    change (digits (p ++ "")%string acc). now rewrite E.
  - destruct (digit_value c) as [d|] eqn:Ed; [|discriminate].
    apply digit_value_spec in Ed as [Hd Hc].
    assert (E : (p ++ String c t)%string = ((p ++ String c "") ++ t)%string).
    { clear. induction p; simpl; congruence. }
    change (digits (p ++ String c t)%string n). rewrite E.
    eapply IH; [|exact H]. now apply digits_snoc.
Qed.

Lemma digits_complete s n : s <> ""%string -> digits_from 0 s = Some n -> digits s n.
Proof.
  destruct s as [|c t]; [congruence|]. intros _. cbn [digits_from].
  destruct (digit_value c) as [d|] eqn:Ed; [|discriminate].
  apply digit_value_spec in Ed as [Hd Hc]. intros H.
  change (String c t) with (String c "" ++ t)%string.
  eapply digits_ext; [|exact H].
  replace (10 * 0 + d)%N with d by lia. now constructor.
Qed.

Lemma digits_iff s n : digits s n <-> s <> ""%string /\ digits_from 0 s = Some n.
Proof.
  split; [apply digits_sound|intros [H1 H2]; now apply digits_complete].
Qed.

Lemma plus_not_digit : digit_value "+" = None.
Proof. reflexivity. Qed.

Lemma parse_usize_spec t n : parse_usize t = Some n <-> index_text t n.
Proof.
  unfold index_text. destruct t as [|c t].
  - simpl. split; [discriminate|]. intros [_ [H|(t' & H & _)]]; [|discriminate].
    apply digits_iff in H as [H _]. congruence.
  - unfold parse_usize. destruct (Ascii.eqb_spec c "+") as [->|Hc].
    + split.
      * destruct t as [|c' t']; [discriminate|]. intros H.
        apply parse_digits_from in H as [H1 H2]; [|reflexivity].
        split; [exact H2|right]. exists (String c' t'). split; [reflexivity|].
        apply digits_iff. split; [discriminate|exact H1].
      * intros [H2 [H|(t' & E & H)]].
        -- apply digits_iff in H as [_ H]. cbn [digits_from] in H.
           rewrite plus_not_digit in H. discriminate.
        -- injection E as <-. apply digits_iff in H as [H H1].
           destruct t as [|c' t']; [congruence|].
           apply parse_digits_from; [reflexivity|]. auto.
    + split.
      * intros H. apply parse_digits_from in H as [H1 H2]; [|reflexivity].
        split; [exact H2|left]. apply digits_iff. split; [discriminate|exact H1].
      * intros [H2 [H|(t' & E & H)]]; [|congruence].
        apply digits_iff in H as [_ H]. apply parse_digits_from; [reflexivity|]. auto.
Qed.

Lemma nth_N_spec {A} (l : list A) n : nth_N l n = nth_error l (N.to_nat n).
Proof.
  unfold nth_N. destruct (N.ltb_spec n (N.of_nat (length l))); [reflexivity|].
  symmetry. apply nth_error_None. lia.
Qed.

Lemma get_path_spec p : forall v w, get_path p v = Some w <-> reaches v p w.
Proof.
  induction p as [|t p IH]; intros v w; simpl.
  - split; [intros [= ->]; constructor|inversion 1; reflexivity].
  - destruct v; try (split; [discriminate|inversion 1]).
    + split.
      * destruct (parse_usize t) as [n|] eqn:En; [|discriminate].
        destruct (nth_N l n) eqn:El; [|discriminate].
        rewrite nth_N_spec in El. intros H.
        apply (reaches_index l t n v p w); [now apply parse_usize_spec| exact El|now apply IH].
      * inversion 1 as [| |l' t' n v' p' w' Hi Hn Hr]; subst.
        apply parse_usize_spec in Hi. rewrite Hi, nth_N_spec, Hn. now apply IH.
    + split.
      * destruct (aget t m) eqn:Et; [|discriminate].
        intros H. econstructor; [exact Et|now apply IH].
      * inversion 1 as [|m' k v' p' w' Hg Hr|]; subst. rewrite Hg. now apply IH.
Qed.

Lemma get_path_app p q v :
  get_path (p ++ q) v = match get_path p v with
                        | Some w => get_path q w
                        | None => None
                        end.
Proof.
  revert v. induction p as [|t p IH]; intros v; [reflexivity|].
  simpl app. cbn [get_path]. destruct v; try reflexivity.
  - destruct (parse_usize t); [|reflexivity]. destruct (nth_N l n); auto.
  - destruct (aget t m); auto.
Qed.

(* ---------- leaves / for_each ---------- *)

Lemma for_each_leaves v : leaves v (for_each v).
Proof.
  induction v using value_ind'; simpl; try (apply leaves_leaf; discriminate).
  rewrite flat_map_concat_map. apply leaves_list.
  induction H; simpl; constructor; auto.
Qed.

Lemma leaves_fun v : forall ls, leaves v ls -> ls = for_each v.
Proof.
  induction v using value_ind'; intros ls HL; inversion HL; subst; try reflexivity;
    try (exfalso; eapply H; reflexivity).
  - exfalso. eapply H0. reflexivity.
  - simpl. rewrite flat_map_concat_map. f_equal.
    clear HL. revert ls0 H1. induction H; intros ls' H2; inversion H2; subst; simpl; [reflexivity|].
    f_equal; auto.
Qed.

(* ---------- gather / group_by ---------- *)

Lemma gather_list l : forall k p acc,
    Forall (fun v => forall k p acc, exists ms, matches (k :: p) v ms /\
                 gather_path_matches v (k :: p) acc = acc ++ ms) l ->
    exists ms, matches (k :: p) (VList l) ms /\
               gather_path_matches (VList l) (k :: p) acc = acc ++ ms.
Proof.
  intros k p acc HF.
  assert (G : exists ls, Forall2 (matches (k :: p)) l ls /\
     (fix go (l : list value) (vector : list (value * value)) :=
         match l with
         | [] => vector
         | v :: t => go t (gather_path_matches v (k :: p) vector)
         end) l acc = acc ++ concat ls).
  { revert acc. induction HF as [|v t Hv Ht IH]; intros acc.
    - exists []. split; [constructor|]. simpl. now rewrite app_nil_r.
    - destruct (Hv k p acc) as (ms & Hm & Hg).
      destruct (IH (acc ++ ms)) as (ls & Hls & Hgo).
      exists (ms :: ls). split; [constructor; auto|]. rewrite Hg, Hgo.
      simpl. now rewrite app_assoc. }
  destruct G as (ls & Hls & Hgo). exists (concat ls).
  split; [now constructor|exact Hgo].
Qed.

Definition find_body root tail vector key :=
  (fix find (m : list (string * value)) :=
             match m with
             | [] => vector
             | (k', v) :: t =>
                 if String.eqb key k' then
                   match tail with
                   | [] => vector ++ [(v, root)]
                   | _ => gather_path_matches v tail vector
                   end
                 else find t
             end).

Lemma find_body_eq root tail vector key m :
  find_body root tail vector key m =
  match aget key m with
  | None => vector
  | Some v => match tail with
              | [] => vector ++ [(v, root)]
              | _ => gather_path_matches v tail vector
              end
  end.
Proof.
  induction m as [|[k' v] t IH]; simpl; [reflexivity|].
  destruct (String.eqb key k'); [reflexivity|exact IH].
Qed.

Lemma gather_spec v : forall k p acc, exists ms,
      matches (k :: p) v ms /\ gather_path_matches v (k :: p) acc = acc ++ ms.
Proof.
  induction v using value_ind'; intros k p acc;
    try (exists []; split; [apply matches_scalar; discriminate|simpl; now rewrite app_nil_r]).
  - now apply gather_list.
  - change (gather_path_matches (VObj m) (k :: p) acc) with (find_body (VObj m) p acc k m).
    rewrite find_body_eq. destruct (aget k m) as [v|] eqn:Ek.
    + destruct p as [|k' p].
      * exists [(v, VObj m)]. split; [now constructor|reflexivity].
      * apply aget_In in Ek as Hin. rewrite Forall_forall in H.
        destruct (H _ Hin k' p acc) as (ms & Hm & Hg). simpl in Hm, Hg.
        exists ms. split; [econstructor; eauto|exact Hg].
    + exists []. split; [now constructor|now rewrite app_nil_r].
Qed.

Lemma gather_nil v : forall acc, gather_path_matches v [] acc = acc.
Proof.
  induction v using value_ind'; intros acc; try reflexivity.
  simpl. revert acc. induction H as [|v t Hv Ht IH]; intros acc; [reflexivity|].
  rewrite Hv. apply IH.
Qed.

Lemma gather_matches v p : matches p v (gather_path_matches v p []).
Proof.
  destruct p as [|k p].
  - rewrite gather_nil. constructor.
  - destruct (gather_spec v k p []) as (ms & Hm & Hg). simpl in Hg. now rewrite Hg.
Qed.

Lemma matches_fun v : forall p ms ms', matches p v ms -> matches p v ms' -> ms = ms'.
Proof.
  induction v using value_ind'; intros p ms ms' M1 M2;
    try (inversion M1; subst; inversion M2; subst; congruence || reflexivity).
  - inversion M1; subst; inversion M2; subst; try reflexivity;
      try (exfalso; match goal with H : forall _, VList _ <> VList _ |- _ => eapply H; reflexivity end).
    match goal with
    | H1 : Forall2 _ l ?a, H2 : Forall2 _ l ?b |- _ =>
        clear M1 M2; f_equal; revert a b H1 H2
    end.
    induction H as [|v t Hv Ht IH]; intros ls ls0 H1 H2; inversion H1; inversion H2; subst; [reflexivity|].
    f_equal; eauto.
  - inversion M1; subst; inversion M2; subst; try reflexivity; try congruence;
      try (exfalso; match goal with H : forall _, VObj _ <> VObj _ |- _ => eapply H; reflexivity end).
    assert (v = v0) by congruence; subst.
    match goal with H0 : aget k m = Some v0 |- _ => apply aget_In in H0 as Hin end.
    rewrite Forall_forall in H. eapply (H _ Hin); eassumption.
Qed.

(** group_by_key in terms of a filter *)
Definition key_is (s : string) (kv : value * value) : bool :=
  match key_str (fst kv) with Some k => String.eqb s k | None => false end.

Definition sel (s : string) (src : list (value * value)) : option (list value) :=
  match map snd (filter (key_is s) src) with [] => None | l => Some l end.

Lemma group_by_key_spec src s :
  aget s (group_by_key src) = sel s src.
Proof.
  unfold group_by_key.
  assert (G : forall src acc done,
             (forall s, aget s acc = sel s done) ->
             forall s, aget s (fold_left
    (fun map kv =>
       match key_str (fst kv) with
       | None => map
       | Some key =>
           match aget key map with
           | Some values => aset key (values ++ [snd kv]) map
           | None => aset key [snd kv] map
           end
       end) src acc) = sel s (done ++ src)).
  { clear. induction src as [|kv src IH]; intros acc done Hinv s.
    - simpl. now rewrite app_nil_r.
    - cbn [fold_left]. replace (done ++ kv :: src) with ((done ++ [kv]) ++ src) by now rewrite <- app_assoc.
      apply IH. clear s. intros s.
      unfold sel. rewrite filter_app, map_app. simpl.
      unfold key_is at 2. destruct (key_str (fst kv)) as [k|] eqn:Ek.
      + destruct (String.eqb_spec s k) as [->|Hne].
        * specialize (Hinv k). unfold sel in Hinv.
          destruct (aget k acc) as [vs|] eqn:Ea; rewrite aget_aset_same.
          -- destruct (map snd (filter (key_is k) done)) as [|x xs] eqn:Em; [discriminate|].
             injection Hinv as ->. reflexivity.
          -- destruct (map snd (filter (key_is k) done)) as [|x xs] eqn:Em; [reflexivity|discriminate].
        * cbn [map]. rewrite app_nil_r. fold (sel s done). rewrite <- (Hinv s).
          destruct (aget k acc) as [vs|] eqn:Ea; rewrite aget_aset_other by assumption; reflexivity.
      + cbn [map]. rewrite app_nil_r. apply Hinv. }
  apply (G src [] []). intros s'. reflexivity.
Qed.

Lemma group_by_key_NoDup src : NoDup (akeys (group_by_key src)).
Proof.
  unfold group_by_key.
  assert (G : forall acc, NoDup (akeys acc) -> NoDup (akeys (fold_left
    (fun map kv =>
       match key_str (fst kv) with
       | None => map
       | Some key =>
           match aget key map with
           | Some values => aset key (values ++ [snd kv]) map
           | None => aset key [snd kv] map
           end
       end) src acc))).
  { induction src as [|kv src IH]; intros acc H; [exact H|]. cbn [fold_left]. apply IH.
    destruct (key_str (fst kv)); [|exact H].
    destruct (aget s acc); now apply NoDup_aset. }
  apply G. constructor.
Qed.

Lemma f64_exact z : (Z.abs z <= 2 ^ 53)%Z -> f64_of_Z z = z.
Proof. intros H. unfold f64_of_Z. destruct (Z.leb_spec (Z.abs z) (2 ^ 53)); [reflexivity|lia]. Qed.

Lemma key_str_has_id v s : exact_id v -> (key_str v = Some s <-> has_id v s).
Proof.
  intros He. destruct v; simpl; try (split; [discriminate|inversion 1]).
  - destruct n; simpl.
    + simpl in He. unfold key_str. simpl. rewrite f64_exact by assumption.
      split; [intros [= <-]; constructor|inversion 1; reflexivity].
    + split; [intros [= <-]; constructor|inversion 1; reflexivity].
  - split; [intros [= <-]; constructor|inversion 1; reflexivity].
Qed.

Lemma has_id_fun v s s' : has_id v s -> has_id v s' -> s = s'.
Proof. intros H1 H2. inversion H1; subst; inversion H2; subst; reflexivity. Qed.

Lemma picked_filter s src :
  Forall (fun kv => exact_id (fst kv)) src ->
  picked s src (map snd (filter (key_is s) src)).
Proof.
  induction 1 as [|[k r] t Hk Ht IH]; simpl; [constructor|].
  unfold key_is at 1. simpl in *.
  destruct (key_str k) as [k'|] eqn:Ek.
  - pose proof (proj1 (key_str_has_id k k' Hk) Ek) as Hid.
    destruct (String.eqb_spec s k') as [->|Hne]; simpl.
    + now constructor.
    + constructor; [|exact IH]. intros Hid'. apply Hne. eapply has_id_fun; eassumption.
  - constructor; [|exact IH]. intros Hid. apply (key_str_has_id k s Hk) in Hid. congruence.
Qed.

Lemma picked_fun s src rs rs' : picked s src rs -> picked s src rs' -> rs = rs'.
Proof.
  intros H. revert rs'. induction H; intros rs' H'; inversion H'; subst; try contradiction; try reflexivity.
  - f_equal; auto.
  - auto.
Qed.

Lemma group_by_spec v p ms s rs :
  matches p v ms -> Forall (fun kv => exact_id (fst kv)) ms ->
  (aget s (group_by v p) = Some rs <-> picked s ms rs /\ rs <> []).
Proof.
  intros Hm He. pose proof (gather_matches v p) as Hg.
  pose proof (matches_fun _ _ _ _ Hm Hg) as ->.
  unfold group_by. rewrite group_by_key_spec. unfold sel.
  pose proof (picked_filter s _ He) as HP.
  split.
  - destruct (map snd _) eqn:E; [discriminate|]. intros [= <-]. split; [exact HP|discriminate].
  - intros [HP' Hne]. pose proof (picked_fun _ _ _ _ HP HP') as <-.
    destruct (map snd _); [congruence|reflexivity].
Qed.

Lemma group_by_NoDup v p : NoDup (akeys (group_by v p)).
Proof. apply group_by_key_NoDup. Qed.

(* ---------- map_ref / execute ---------- *)

Section ExecProofs.
  Context {E : Type}.
  Variable part : value -> bool.
  Variable call : value -> result value E.
  Variable call_none : result value E.
  Variable missing : E.

  Let pull := @pull E part missing.
  Definition outcome (v : value) : result value E := if part v then call v else Ok VNull.

  (** result of running the leaves in order *)
  Lemma map_ref_pull : forall v rest,
      let st := map call (filter part (for_each v)) ++ rest in
      match mapM outcome (for_each v) with
      | Ok _ => exists w, map_ref pull st v = (rest, Ok w) /\
                          lifted (fun a b => outcome a = Ok b) v w
      | Err e => exists st', map_ref pull st v = (st', Err e)
      end.
  Proof.
    assert (Leaf : forall v rest, (forall l, v <> VList l) ->
      match mapM outcome [v] with
      | Ok _ => exists w, pull (map call (filter part [v]) ++ rest) v = (rest, Ok w) /\
                          lifted (fun a b => outcome a = Ok b) v w
      | Err e => exists st', pull (map call (filter part [v]) ++ rest) v = (st', Err e)
      end).
    { intros v rest Hv. unfold pull, JsonModel.pull, mapM, outcome. simpl.
      destruct (part v) eqn:Ep; simpl.
      - destruct (call v) eqn:Ec; simpl.
        + exists a. split; [reflexivity|]. apply lifted_leaf; [exact Hv|]. now rewrite Ep.
        + eauto.
      - exists VNull. split; [reflexivity|]. apply lifted_leaf; [exact Hv|]. now rewrite Ep. }
    induction v using value_ind'; intros rest; try (apply Leaf; discriminate).
    cbn [for_each].
    set (go := fix go (st : list (result value E)) (l : list value) : list (result value E) * result (list value) E :=
          match l with
          | [] => (st, Ok [])
          | x :: t =>
              match map_ref pull st x with
              | (st', Err e) => (st', Err e)
              | (st', Ok y) =>
                  match go st' t with
                  | (st'', Ok ys) => (st'', Ok (y :: ys))
                  | (st'', Err e) => (st'', Err e)
                  end
              end
          end).
    assert (G : forall rest,
      match mapM outcome (flat_map for_each l) with
      | Ok _ => exists ws, go (map call (filter part (flat_map for_each l)) ++ rest) l = (rest, Ok ws) /\
                          Forall2 (lifted (fun a b => outcome a = Ok b)) l ws
      | Err e => exists st', go (map call (filter part (flat_map for_each l)) ++ rest) l = (st', Err e)
      end).
    { clear rest. induction H as [|v t Hv Ht IH]; intros rest.
      - simpl. exists []. split; [reflexivity|constructor].
      - cbn [flat_map]. rewrite filter_app, map_app, <- app_assoc.
        assert (MA : mapM outcome (for_each v ++ flat_map for_each t) =
                     match mapM outcome (for_each v) with
                     | Err e => Err e
                     | Ok a => match mapM outcome (flat_map for_each t) with
                               | Ok b => Ok (a ++ b) | Err e => Err e end
                     end).
        { generalize (for_each v) as xs. intros xs. clear.
          induction xs as [|x xs IH]; simpl; [destruct (mapM outcome (flat_map for_each t)); reflexivity|].
          destruct (outcome x); [|reflexivity]. rewrite IH.
          destruct (mapM outcome xs); [|reflexivity].
          destruct (mapM outcome (flat_map for_each t)); reflexivity. }
        rewrite MA. specialize (Hv (map call (filter part (flat_map for_each t)) ++ rest)). simpl in Hv.
        destruct (mapM outcome (for_each v)) as [a|e].
        + destruct Hv as (w & Hw & HL). specialize (IH rest).
          destruct (mapM outcome (flat_map for_each t)) as [b|e].
          * destruct IH as (ws & Hws & HF). exists (w :: ws).
            cbn [go]. rewrite Hw, Hws. split; [reflexivity|constructor; assumption].
          * destruct IH as (st' & Hst). exists st'. cbn [go]. now rewrite Hw, Hst.
        + destruct Hv as (st' & Hst). exists st'. cbn [go]. now rewrite Hst. }
    specialize (G rest). cbn zeta.
    destruct (mapM outcome (flat_map for_each l)) as [a|e].
    - destruct G as (ws & Hws & HF). exists (VList ws).
      cbn [map_ref]. fold go. rewrite Hws. split; [reflexivity|now constructor].
    - destruct G as (st' & Hst). exists st'. cbn [map_ref]. fold go. now rewrite Hst.
  Qed.

  Lemma execute_list_calls l :
    fst (execute_field part call call_none missing (Some (VList l))) =
    map Some (filter part (for_each (VList l))).
  Proof. reflexivity. Qed.

  Lemma execute_list_ok l w :
    snd (execute_field part call call_none missing (Some (VList l))) = Ok w ->
    lifted (fun a b => outcome a = Ok b) (VList l) w.
  Proof.
    cbn [execute_field snd]. pose proof (map_ref_pull (VList l) []) as H. cbn zeta in H.
    rewrite app_nil_r in H. unfold pull in H.
    destruct (mapM outcome (for_each (VList l))) as [a|e].
    - destruct H as (w' & Hw & HL). rewrite Hw. simpl. intros [= <-]. exact HL.
    - destruct H as (st' & Hst). rewrite Hst. discriminate.
  Qed.

  Lemma execute_list_err l e :
    snd (execute_field part call call_none missing (Some (VList l))) = Err e <->
    exists pre a post, for_each (VList l) = pre ++ a :: post /\ part a = true /\ call a = Err e /\
                       Forall (fun x => part x = true -> exists b, call x = Ok b) pre.
  Proof.
    cbn [execute_field snd]. pose proof (map_ref_pull (VList l) []) as H. cbn zeta in H.
    rewrite app_nil_r in H. unfold pull in H.
    assert (Q : mapM outcome (for_each (VList l)) = Err e <->
             exists pre a post, for_each (VList l) = pre ++ a :: post /\ part a = true /\ call a = Err e /\
                       Forall (fun x => part x = true -> exists b, call x = Ok b) pre).
    { rewrite mapM_Err. split.
      - intros (pre & a & post & bs & H1 & H2 & H3). exists pre, a, post.
        unfold outcome in H2. destruct (part a) eqn:Ep; [|discriminate].
        repeat split; auto. apply mapM_Ok in H3.
        clear - H3. induction H3 as [|x y xs ys Hxy Hs IH]; constructor; auto.
        unfold outcome in Hxy. intros Hp. rewrite Hp in Hxy. eauto.
      - intros (pre & a & post & H1 & Hp & H2 & H3).
        assert (exists bs, mapM outcome pre = Ok bs) as [bs Hbs].
        { clear - H3. induction H3 as [|x xs Hx Hs IH]; [exists []; reflexivity|].
          destruct IH as [bs Hbs].
          cbn [mapM]. unfold outcome at 1. destruct (part x) eqn:Ep.
          - destruct (Hx eq_refl) as [b Hb]. exists (b :: bs). now rewrite Hb, Hbs.
          - exists (VNull :: bs). now rewrite Hbs. }
        exists pre, a, post, bs. unfold outcome at 1. rewrite Hp. auto. }
    rewrite <- Q. destruct (mapM outcome (for_each (VList l))) as [a|e'].
    - destruct H as (w & Hw & _). rewrite Hw. simpl. split; discriminate.
    - destruct H as (st' & Hst). rewrite Hst. simpl. split; congruence.
  Qed.
End ExecProofs.

Lemma lifted_impl (R R' : value -> value -> Prop) :
  (forall a b, R a b -> R' a b) -> forall v w, lifted R v w -> lifted R' v w.
Proof.
  intros HR v. induction v using value_ind'; intros w HL; inversion HL; subst;
    try (apply lifted_leaf; [assumption|now apply HR]).
  apply lifted_list. clear HL. match goal with H1 : Forall2 _ _ _ |- _ => revert l' H1 end.
  induction H as [|x t Hx Ht IH]; intros l' HF; inversion HF; subst; constructor; auto.
Qed.

Lemma execute_list_shape {E} (part : value -> bool) (call : value -> result value E) cn ms l w :
  snd (execute_field part call cn ms (Some (VList l))) = Ok w ->
  lifted (fun a b => (part a = true /\ call a = Ok b) \/ (part a = false /\ b = VNull)) (VList l) w.
Proof.
  intros H. apply execute_list_ok in H. revert H. apply lifted_impl.
  intros a b. unfold outcome. destruct (part a); [auto|]. intros [= <-]. auto.
Qed.

Lemma execute_calls {E} (part : value -> bool) (call : value -> result value E) cn ms l ls :
  leaves (VList l) ls ->
  fst (execute_field part call cn ms (Some (VList l))) = map Some (filter part ls).
Proof. intros H. apply leaves_fun in H. subst. reflexivity. Qed.

Lemma execute_err {E} (part : value -> bool) (call : value -> result value E) cn ms l ls e :
  leaves (VList l) ls ->
  (snd (execute_field part call cn ms (Some (VList l))) = Err e <->
   exists pre a post, ls = pre ++ a :: post /\ part a = true /\ call a = Err e /\
                      Forall (fun x => part x = true -> exists b, call x = Ok b) pre).
Proof. intros H. apply leaves_fun in H. subst. apply execute_list_err. Qed.

Lemma group_by_big_collision :
  exists a b v,
    a <> b /\ v = VList [VObj [("id", VNum (NInt a))]; VObj [("id", VNum (NInt b))]] /\
    group_by v ["id"] = [(Z_to_string a, [VObj [("id", VNum (NInt a))]; VObj [("id", VNum (NInt b))]])].
Proof.
  eexists (2 ^ 53)%Z, (2 ^ 53 + 1)%Z, _. split; [discriminate|]. split; [reflexivity|].
  vm_compute. reflexivity.
Qed.
