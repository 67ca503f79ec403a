(** Proofs about reports of errors (C89). *)
From Coq Require Import String Ascii Bool Arith Lia List.
From Verif Require Import Base StringFacts ErModel ErSpec.
Import ListNotations.
Open Scope string_scope.
Open Scope list_scope.

(** ** Induction *)
Fixpoint depth (e : errata) : nat := let 'Errata _ _ _ _ _ cs := e in S (list_max (map depth cs)).
Lemma depth_below : forall e c, In c (causes_of e) -> depth c < depth e.
Proof.
  intros [r c m d t cs] x I. cbn [causes_of] in I. cbn [depth]. pose proof (proj1 (list_max_le (map depth cs) _) (le_n _)) as F.
  rewrite Forall_forall in F. specialize (F (depth x) (in_map _ _ _ I)). lia.
Qed.
Lemma errata_ind' : forall P : errata -> Prop, (forall e, (forall c, In c (causes_of e) -> P c) -> P e) -> forall e, P e.
Proof.
  intros P H e. assert (G : forall n e, depth e < n -> P e).
  { induction n as [|n IH]; intros e0 L; [lia|]. apply H. intros c I. apply IH. apply depth_below in I. lia. }
  exact (G (S (depth e)) e (Nat.lt_succ_diag_r _)).
Qed.

(** ** Lines *)
Definition nl : ascii := ascii_of_nat 10.
Lemma lines_cons : forall s, exists l ls, lines s = l :: ls.
Proof. intros [|c r]; [now exists "", []|]. cbn [lines]. destruct (Ascii.eqb c _); [eauto|]. destruct (lines r); eauto. Qed.
Lemma lines_one : forall s, one_line s -> lines s = [s].
Proof.
  induction s as [|c s IH]; intros O; [reflexivity|]. cbn [lines]. unfold one_line in O. cbn in O.
  destruct (Ascii.eqb_spec c (ascii_of_nat 10)) as [E|N]; [destruct O; left; exact E|]. rewrite IH; [reflexivity|]. intros I. apply O. now right.
Qed.
Lemma lines_newline : forall a b, lines (a ++ newline ++ b)%string = lines a ++ lines b.
Proof.
  induction a as [|c a IH]; intros b; [reflexivity|]. cbn [append lines]. destruct (Ascii.eqb c _); [now rewrite IH|].
  rewrite IH. destruct (lines_cons a) as (l & ls & E). rewrite E. reflexivity.
Qed.
Lemma text_lines : forall s, text_of (lines s) = s.
Proof.
  induction s as [|c s IH]; [reflexivity|]. cbn [lines]. destruct (lines_cons s) as (l & ls & E). unfold text_of in *. rewrite E in IH |- *.
  destruct (Ascii.eqb_spec c (ascii_of_nat 10)) as [->|N].
  - change (String.concat newline ("" :: l :: ls)) with ("" ++ newline ++ String.concat newline (l :: ls))%string. now rewrite IH.
  - destruct ls as [|l2 ls]; cbn [String.concat] in *; cbn [append]; [now rewrite IH|]. f_equal. exact IH.
Qed.
Lemma lines_inj : forall a b, lines a = lines b -> a = b.
Proof. intros a b E. rewrite <- (text_lines a), <- (text_lines b). now rewrite E. Qed.

(** ** Margins *)
Fixpoint dent (p : string) (ls : list string) : list string :=
  match ls with
  | [] => []
  | [l] => if String.eqb l "" then [""] else [(p ++ l)%string]
  | l :: ls => (p ++ l)%string :: dent p ls
  end.
Lemma moved_dent : forall ls, moved ls = dent "    " ls.
Proof. induction ls as [|l [|l2 ls] IH]; [reflexivity|reflexivity|]. cbn [moved dent] in *. now rewrite IH. Qed.
Lemma dent_cons : forall p l ls, ls <> [] -> dent p (l :: ls) = (p ++ l)%string :: dent p ls.
Proof. intros p l [|a ls] N; [now destruct N|reflexivity]. Qed.
Lemma dent_nil : forall p ls, dent p ls = [] -> ls = [].
Proof. intros p [|l [|l2 ls]] E; [reflexivity|cbn in E; destruct (String.eqb l ""); discriminate|discriminate]. Qed.
Lemma dent_twice : forall p q ls, p <> "" -> dent q (dent p ls) = dent (q ++ p)%string ls.
Proof.
  intros p q ls N. induction ls as [|l ls IH]; [reflexivity|]. destruct ls as [|l2 ls].
  - cbn [dent]. destruct (String.eqb_spec l "") as [->|Z]; [reflexivity|]. cbn [dent]. rewrite str_app_assoc.
    destruct (String.eqb_spec (p ++ l)%string "") as [E|_]; [|reflexivity]. apply str_app_eq_nil in E as [E _]. now destruct N.
  - rewrite !(dent_cons _ l) by discriminate. rewrite dent_cons by (intros E; now apply dent_nil in E). rewrite IH. now rewrite str_app_assoc.
Qed.
Lemma margin_cons : forall p ps n, String.concat "" (map (fun line => (spaces n ++ line)%string) (p :: ps)) =
  (spaces n ++ p ++ String.concat "" (map (fun line => (spaces n ++ line)%string) ps))%string.
Proof. intros p ps n. cbn [map]. rewrite concat_nil_cons. now rewrite str_app_assoc. Qed.
Lemma split_nil : forall s, split_inclusive s = [] -> s = "".
Proof. intros [|c s] E; [reflexivity|]. cbn in E. destruct (Ascii.eqb c _); [discriminate|]. destruct (split_inclusive s); discriminate. Qed.
(** pieces with their line ends *)
Lemma lines_prefix : forall p s, one_line p -> lines (p ++ s)%string = match lines s with l :: ls => (p ++ l)%string :: ls | [] => [] end.
Proof.
  induction p as [|c p IH]; intros s O; [cbn; destruct (lines_cons s) as (l & ls & ->); reflexivity|].
  cbn [append lines]. unfold one_line in O. cbn in O. destruct (Ascii.eqb_spec c (ascii_of_nat 10)) as [E|N]; [destruct O; now left|].
  rewrite IH by (intros I; apply O; now right). destruct (lines_cons s) as (l & ls & ->). reflexivity.
Qed.
Lemma one_line_spaces : forall n, one_line (spaces n).
Proof. unfold one_line. induction n as [|n IH]; cbn; [tauto|]. intros [E|I]; [discriminate|auto]. Qed.
Lemma one_line_append : forall a b, one_line a -> one_line b -> one_line (a ++ b)%string.
Proof. unfold one_line. induction a as [|c a IH]; intros b A B; [exact B|]. cbn in *. intros [E|I]; [auto|]. apply (IH b); auto. Qed.
Lemma margin_lines : forall s n, lines (margin s n) = dent (spaces n) (lines s).
Proof.
  intros s n. unfold margin. 
  assert (G : forall s, match split_inclusive s with
    | [] => s = ""
    | p :: ps => exists l, (p = l /\ ps = [] /\ lines s = [l] /\ l <> "" /\ one_line l) \/
        (p = (l ++ newline)%string /\ one_line l /\ exists s', split_inclusive s' = ps /\ lines s = l :: lines s' /\ String.length s' < String.length s)
    end).
  { clear. induction s as [|c s IH]; [reflexivity|]. cbn [split_inclusive]. destruct (Ascii.eqb_spec c (ascii_of_nat 10)) as [->|N].
    - exists "". right. split; [reflexivity|]. split; [now intros []|]. exists s. repeat split; cbn; auto.
    - destruct (split_inclusive s) as [|p ps].
      + subst s. exists (String c ""). left. split; [reflexivity|]. split; [reflexivity|]. cbn [lines]. destruct (Ascii.eqb_spec c (ascii_of_nat 10)); [contradiction|].
        split; [reflexivity|]. split; [discriminate|]. intros [E|[]]. auto.
      + destruct IH as [l [(-> & -> & E & Z & O)|(-> & O & s' & E1 & E2 & L)]]; exists (String c l).
        * left. repeat split; auto; [|discriminate|intros [Q|Q]; auto]. cbn [lines]. destruct (Ascii.eqb_spec c (ascii_of_nat 10)); [contradiction|]. now rewrite E.
        * right. split; [reflexivity|]. split; [intros [Q|Q]; auto|]. exists s'. split; [exact E1|]. split; [|cbn; lia].
          cbn [lines]. destruct (Ascii.eqb_spec c (ascii_of_nat 10)); [contradiction|]. now rewrite E2. }
  remember (String.length s) as k eqn:K. revert s K. induction k as [k IH] using lt_wf_ind. intros s K. specialize (G s). destruct (split_inclusive s) as [|p ps] eqn:S.
  - subst s. reflexivity.
  - destruct G as [l [(-> & -> & E & Z & O)|(-> & O & s' & E1 & E2 & L)]].
    + rewrite E. cbn [map String.concat dent]. destruct (String.eqb_spec l ""); [contradiction|]. apply lines_one. apply one_line_append; [apply one_line_spaces|exact O].
    + rewrite margin_cons. rewrite !str_app_assoc. rewrite lines_prefix by apply one_line_spaces. rewrite lines_prefix by exact O. rewrite E2.
      change (newline ++ ?x)%string with ("" ++ newline ++ x)%string. rewrite lines_newline. cbn [lines app]. rewrite str_app_nil_r.
      rewrite dent_cons by (destruct (lines_cons s') as (a & b & ->); discriminate). f_equal. rewrite <- E1. apply (IH (String.length s')); lia.
Qed.
Lemma bullet_some : forall s, s <> "" -> exists b, bullet s = Some b /\ lines (margin b 2) = as_item (lines s).
Proof.
  intros s N. pose proof (margin_lines s 2) as M. unfold bullet. destruct (lines_cons s) as (l & ls & E). rewrite E in M |- *.
  assert (P : exists r, margin s 2 = String " " (String " " r) /\ lines r = l :: dent "  " ls).
  { destruct ls as [|l2 ls].
    - assert (Z : l <> "") by (intros ->; apply N; rewrite <- (text_lines s), E; reflexivity).
      cbn [dent] in M. destruct (String.eqb_spec l ""); [contradiction|]. exists l. assert (margin s 2 = ("  " ++ l)%string) as Q.
      { rewrite <- (text_lines (margin s 2)), M. reflexivity. }
      split; [exact Q|]. rewrite Q in M. cbn [append lines] in M. cbn in M. destruct (lines_cons l) as (a & b & El). rewrite El in M. cbn in M. injection M as -> ->. exact El.
    - rewrite dent_cons in M by discriminate. remember (dent (spaces 2) (l2 :: ls)) as D eqn:HD. remember (margin s 2) as t. destruct t as [|c1 [|c2 t]]; cbn [lines] in M.
      + discriminate M.
      + destruct (Ascii.eqb c1 _); discriminate M.
      + destruct (Ascii.eqb_spec c1 (ascii_of_nat 10)) as [->|N1]; [discriminate M|]. destruct (Ascii.eqb_spec c2 (ascii_of_nat 10)) as [->|N2]; [discriminate M|].
        destruct (lines_cons t) as (a & b & Et). rewrite Et in M. cbn in M. injection M as -> -> -> ->. exists t. split; [reflexivity|]. rewrite HD in Et. exact Et. }
  destruct P as (r & -> & Er). exists ("• " ++ r)%string. split; [reflexivity|]. rewrite margin_lines. rewrite lines_prefix by (unfold one_line; cbn; intuition discriminate).
  rewrite Er. destruct ls as [|l2 ls].
  - cbn [dent as_item moved]. destruct (String.eqb_spec ("• " ++ l)%string ""); [discriminate|reflexivity].
  - rewrite dent_cons by (intros Q; now apply dent_nil in Q). rewrite dent_twice by discriminate. cbn [as_item]. rewrite moved_dent. reflexivity.
Qed.

(** ** Reports *)
Lemma trace_concat : forall t, trace_text t = String.concat "." t.
Proof. induction t as [|a [|b t] IH]; [reflexivity|reflexivity|]. cbn [trace_text String.concat] in *. now rewrite IH. Qed.
Lemma below_child : forall e c x, In c (causes_of e) -> (x = c \/ below c x) -> below e x.
Proof. intros e c x I [->|B]; [now apply below_one|now apply below_more with c]. Qed.
Lemma layout_eq : forall e, layout e = lines (says e) ++ match causes_of e with [] => [] | cs => "Caused by:" :: flat_map (fun c => as_item (layout c)) cs end.
Proof. intros [r c m d t cs]. destruct cs; reflexivity. Qed.
Lemma layout_silent : forall e, layout e = [""] -> silent e.
Proof.
  intros e E. rewrite layout_eq in E. destruct (lines_cons (says e)) as (l & ls & L). rewrite L in E. unfold silent. destruct (causes_of e) as [|x cs].
  - split; [|reflexivity]. cbn in E. rewrite app_nil_r in E. rewrite <- (text_lines (says e)), L, E. reflexivity.
  - cbn in E. injection E as _ E. destruct ls; discriminate.
Qed.
Lemma silent_layout : forall e, silent e -> layout e = [""].
Proof. intros e [S C]. rewrite layout_eq, S, C. reflexivity. Qed.

Section Reports.
  Variable paint : colour -> string -> string.
  Definition unpainted (e : errata) : Prop := plain e \/ forall c s, paint c s = s.
  Lemma unpainted_below : forall e c, unpainted e -> In c (causes_of e) -> unpainted c.
  Proof. intros e c [[P B]|P] I; [left|right; exact P]. split; [apply B; now apply below_one|]. intros x X. apply B. now apply below_more with c. Qed.
  Definition texts_of : list errata -> option (list string) :=
    fix each (l : list errata) : option (list string) :=
      match l with
      | [] => Some []
      | x :: l => match display paint x, each l with Some a, Some b => Some (a :: b) | _, _ => None end
      end.
  Lemma display_eq : forall e, unpainted e -> display paint e =
    match causes_of e with
    | [] => Some (says e)
    | cs => match texts_of cs with
            | Some texts => match items texts with Some r => Some (says e ++ newline ++ "Caused by:" ++ newline ++ r)%string | None => None end
            | None => None
            end
    end.
  Proof.
    intros [r c m d t cs] U. assert (C : forall s k, colored paint c s k = s).
    { intros s k. destruct U as [[P _]|P]; [cbn in P; subst c; reflexivity|]. unfold colored. destruct c; [apply P|reflexivity]. }
    cbn [display causes_of says]. rewrite <- trace_concat. destruct d; destruct t; destruct cs; rewrite ?C; reflexivity.
  Qed.
  Definition good (e : errata) (t : string) : Prop := lines t = layout e /\ forall c, below e c -> ~ silent c.
  Lemma items_some : forall cs texts, Forall2 good cs texts -> cs <> [] ->
    match items texts with
    | Some r => lines r = flat_map (fun c => as_item (layout c)) cs /\ (forall c, In c cs -> ~ silent c)
    | None => exists c, In c cs /\ silent c
    end.
  Proof.
    intros cs texts F. induction F as [|c t cs texts [L B] F IH]; intros N; [now destruct N|]. cbn [items].
    destruct (String.eqb_spec t "") as [->|Z].
    - cbn. exists c. split; [now left|]. apply layout_silent. rewrite <- L. reflexivity.
    - destruct (bullet_some t Z) as (b & -> & Eb). assert (S : ~ silent c).
      { intros Q. apply silent_layout in Q. rewrite Q in L. change [""] with (lines "") in L. apply lines_inj in L. contradiction. }
      destruct cs as [|c2 cs].
      + inversion F; subst. cbn [items]. rewrite !str_app_nil_r. split; [rewrite Eb, L; cbn; now rewrite app_nil_r|]. intros x [<-|[]]. exact S.
      + assert (IH' := IH ltac:(discriminate)). clear IH. destruct (items texts) as [r|].
        * destruct IH' as [E Q]. inversion F; subst. split; [rewrite lines_newline, Eb, L, E; reflexivity|]. intros x [<-|I]; [exact S|now apply Q].
        * destruct IH' as (x & I & Q). exists x. split; [now right|exact Q].
  Qed.
  Lemma display_main : forall e, unpainted e ->
    match display paint e with
    | Some t => good e t
    | None => exists c, below e c /\ silent c
    end.
  Proof.
    induction e as [e IH] using errata_ind'. intros U. rewrite display_eq by exact U. destruct (causes_of e) as [|x cs'] eqn:C.
    - split; [rewrite layout_eq, C; now rewrite app_nil_r|]. intros c B. exfalso. destruct B as [e c I|e c d I B]; rewrite C in I; destruct I.
    - rewrite <- C in IH |- *. assert (T : forall cs, (forall c, In c cs -> In c (causes_of e)) ->
        match texts_of cs with Some texts => Forall2 good cs texts | None => exists c, below e c /\ silent c end).
      { induction cs as [|c cs IHc]; intros S; [constructor|]. cbn [texts_of]. fold texts_of. assert (Ic : In c (causes_of e)) by (apply S; now left).
        specialize (IH c Ic (unpainted_below e c U Ic)). destruct (display paint c) as [a|].
        - assert (IHc' := IHc (fun c I => S c (or_intror I))). destruct (texts_of cs); [now constructor|exact IHc'].
        - destruct IH as (z & B & Z). exists z. split; [now apply below_more with c|exact Z]. }
      specialize (T (causes_of e) (fun c I => I)). rewrite C. rewrite <- C. destruct (texts_of (causes_of e)) as [texts|]; [|exact T].
      pose proof (items_some _ _ T ltac:(rewrite C; discriminate)) as I. destruct (items texts) as [r|].
      + destruct I as [E Q]. split.
        * rewrite lines_newline. change ("Caused by:" ++ newline ++ r)%string with ("Caused by:" ++ (newline ++ r))%string. rewrite lines_newline, E, layout_eq, C. reflexivity.
        * intros c B. destruct B as [e c I|e c d I B]; [now apply Q|]. clear -T I B. induction T as [|a t l ts [_ G] F IHF]; [destruct I|].
          destruct I as [<-|I]; [now apply G|now apply IHF].
      + destruct I as (c & I & S). exists c. split; [now apply below_one|exact S].
  Qed.
End Reports.

(** ** Reading back *)
Lemma dent_inj : forall p a b, p <> "" -> dent p a = dent p b -> a = b.
Proof.
  intros p a. induction a as [|x a IH]; intros b N E; [symmetry in E; apply dent_nil in E; now subst|].
  destruct b as [|y b]; [apply dent_nil in E; discriminate|]. destruct a as [|x2 a], b as [|y2 b].
  - cbn [dent] in E. destruct (String.eqb_spec x ""), (String.eqb_spec y ""); subst; [reflexivity| | |].
    + injection E as E. symmetry in E. apply str_app_eq_nil in E as [-> _]. now destruct N.
    + injection E as E. apply str_app_eq_nil in E as [-> _]. now destruct N.
    + injection E as E. apply str_app_inv_head in E. now subst.
  - rewrite (dent_cons p y) in E by discriminate. cbn [dent] in E. destruct (String.eqb x ""); injection E as _ E; destruct b; try destruct (String.eqb y2 ""); discriminate.
  - rewrite (dent_cons p x) in E by discriminate. cbn [dent] in E. destruct (String.eqb y ""); injection E as _ E; destruct a; try destruct (String.eqb x2 ""); discriminate.
  - rewrite !dent_cons in E by discriminate. injection E as E1 E2. apply str_app_inv_head in E1. subst y. f_equal. now apply IH.
Qed.
Lemma as_item_inj : forall a b, as_item a = as_item b -> a = b.
Proof.
  intros [|x a] [|y b] E; try discriminate; [reflexivity|]. cbn [as_item] in E. rewrite !moved_dent in E. injection E as E1 E2.
  apply dent_inj in E2; [now subst|discriminate].
Qed.
Definition starts (l : string) : bool := String.prefix "  •" l.
Lemma moved_starts : forall ls, Forall (fun l => starts l = false) (moved ls).
Proof.
  intros ls. rewrite moved_dent. induction ls as [|l [|l2 ls] IH]; [constructor| |].
  - cbn [dent]. destruct (String.eqb l ""); repeat constructor.
  - rewrite dent_cons by discriminate. constructor; [reflexivity|exact IH].
Qed.
Definition block (b : list string) : Prop := exists l ls, b = l :: ls /\ starts l = true /\ Forall (fun l => starts l = false) ls.
Lemma blocks_inj : forall a b, Forall block a -> Forall block b -> concat a = concat b -> a = b.
Proof.
  assert (T : forall x y a b, Forall (fun l => starts l = false) x -> Forall (fun l => starts l = false) y -> Forall block a -> Forall block b ->
    x ++ concat a = y ++ concat b -> x = y /\ concat a = concat b).
  { induction x as [|u x IH]; intros [|v y] a b X Y A B E; [auto| | |].
    - exfalso. inversion Y; subst. destruct A as [|k a K A]; [discriminate|]. destruct K as (l & ls & -> & S & _). cbn in E. injection E as -> _. congruence.
    - exfalso. inversion X; subst. destruct B as [|k b K B]; [discriminate|]. destruct K as (l & ls & -> & S & _). cbn in E. injection E as -> _. congruence.
    - inversion X; inversion Y; subst. cbn in E. injection E as -> E. destruct (IH y a b) as [-> Q]; auto. }
  induction a as [|x a IH]; intros b A B E.
  - destruct B as [|k b K B]; [reflexivity|]. destruct K as (l & ls & -> & _). discriminate.
  - inversion A as [|? ? K A']; subst. destruct K as (l & ls & -> & S & N). destruct B as [|k b K B]; [discriminate|]. destruct K as (l' & ls' & -> & S' & N').
    cbn [concat app] in E. injection E as -> E. destruct (T ls ls' a b) as [-> Q]; auto. f_equal. now apply IH.
Qed.
Lemma layout_blocks : forall cs, Forall block (map (fun c => as_item (layout c)) cs).
Proof.
  intros cs. apply Forall_forall. intros b I. apply in_map_iff in I as (c & <- & _). rewrite layout_eq. destruct (lines_cons (says c)) as (l & ls & ->).
  cbn [app as_item]. eexists _, _. split; [reflexivity|]. split; [reflexivity|apply moved_starts].
Qed.
Lemma outline_eq : forall e, outline_of e = Says (says e) (map outline_of (causes_of e)).
Proof. intros [r c m d t cs]. reflexivity. Qed.
Lemma layout_inj : forall a b, all_one_line a -> all_one_line b -> layout a = layout b -> outline_of a = outline_of b.
Proof.
  induction a as [a IH] using errata_ind'. intros b [Oa Ba] [Ob Bb] E. rewrite !outline_eq. rewrite !layout_eq in E. rewrite (lines_one (says a)), (lines_one (says b)) in E by assumption.
  cbn [app] in E. injection E as -> E. f_equal. assert (E' : map (fun c => as_item (layout c)) (causes_of a) = map (fun c => as_item (layout c)) (causes_of b)).
  { destruct (causes_of a) as [|x l], (causes_of b) as [|y l']; try discriminate; [reflexivity|]. apply (f_equal (@tl string)) in E. cbn [tl] in E.
    rewrite !flat_map_concat_map in E. apply blocks_inj; [apply layout_blocks|apply layout_blocks|exact E]. }
  assert (G : forall m n, (forall c, In c m -> In c (causes_of a)) -> (forall c, In c n -> In c (causes_of b)) ->
    map (fun c => as_item (layout c)) m = map (fun c => as_item (layout c)) n -> map outline_of m = map outline_of n).
  { induction m as [|u m IHm]; intros [|v n] M N Q; try discriminate; [reflexivity|]. cbn [map] in Q |- *. injection Q as Q1 Q2. apply as_item_inj in Q1. f_equal.
    - assert (Iu : In u (causes_of a)) by (apply M; now left). assert (Iv : In v (causes_of b)) by (apply N; now left). apply IH; [exact Iu| | |exact Q1].
      + split; [apply Ba; now apply below_one|]. intros c C. apply Ba. now apply below_more with u.
      + split; [apply Bb; now apply below_one|]. intros c C. apply Bb. now apply below_more with v.
    - apply IHm; auto; intros; [apply M|apply N]; now right. }
  apply G; auto.
Qed.
Lemma one_line_bool : forall s, forallb (fun c => negb (Ascii.eqb c (ascii_of_nat 10))) (list_ascii_of_string s) = true -> one_line s.
Proof. intros s F I. rewrite forallb_forall in F. specialize (F _ I). rewrite Ascii.eqb_refl in F. discriminate. Qed.
Lemma one_line_says : forall r c m d t cs, one_line m -> (forall x, d = Some x -> one_line x) -> one_line (String.concat "." t) -> one_line (says (Errata r c m d t cs)).
Proof.
  intros r c m d t cs M D T. cbn [says]. apply one_line_append; [exact M|]. apply one_line_append.
  - destruct d as [d|]; [apply one_line_append; [now apply one_line_bool|auto]|now apply one_line_bool].
  - destruct t; [now apply one_line_bool|]. apply one_line_append; [now apply one_line_bool|]. apply one_line_append; [exact T|now apply one_line_bool].
Qed.
