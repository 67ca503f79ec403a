(** Proofs about the texts of documents: what is read from the tokens *)
From Coq Require Import String Ascii ZArith NArith Bool Arith List Lia Permutation.
From Verif Require Import Base TypeModel DocModel OpGenModel StringFacts PrModel PrSpec PrProofs Pr2Proofs.
Import ListNotations.
Open Scope string_scope.
Open Scope list_scope.

Definition notp (c : ascii) (r : list token) : bool := match r with Punct d :: _ => negb (Ascii.eqb c d) | _ => true end.
Definition free (r : list token) : bool := match r with Punct d :: _ => (Ascii.eqb d ")" || Ascii.eqb d "}")%bool | _ => true end.
Definition wordy (l : list token) : bool := match l with [] | Punct _ :: _ => false | _ => true end.
Lemma try_no c r : notp c r = true -> try_punct c r = Some (false, r).
Proof. destruct r as [|[w|d|t|b] r]; try reflexivity. cbn. intros H. apply negb_true_iff in H. now rewrite H. Qed.
Lemma try_yes c r : try_punct c (Punct c :: r) = Some (true, r). Proof. cbn. now rewrite Ascii.eqb_refl. Qed.
Lemma punct_yes c r : read_punct c (Punct c :: r) = Some (tt, r). Proof. cbn. now rewrite Ascii.eqb_refl. Qed.
Lemma free_notp c r : (c <> ")"%char /\ c <> "}"%char) -> free r = true -> notp c r = true.
Proof.
  intros [A B]. destruct r as [|[w|d|t|b] r]; try reflexivity. cbn. intros H. apply negb_true_iff. apply Ascii.eqb_neq. intros ->.
  apply orb_prop in H as [H|H]; apply Ascii.eqb_eq in H; congruence.
Qed.
Lemma wordy_notp c l r : wordy l = true -> notp c (l ++ r) = true. Proof. destruct l as [|[w|d|t|b] l]; easy. Qed.
Lemma wordy_free l r : wordy l = true -> free (l ++ r) = true. Proof. destruct l as [|[w|d|t|b] l]; easy. Qed.
Lemma name_yes n r : is_name n -> read_name (Word n :: r) = Some (n, r). Proof. unfold is_name. cbn. now intros ->. Qed.

Lemma until_ok {A X} (item : reads A) (tk : X -> list token) (g : X -> A) c r l : forall F, length l < F ->
  free (Punct c :: r) = true ->
  (forall x r, In x l -> free r = true -> item (tk x ++ r) = Some (g x, r)) -> (forall x, In x l -> wordy (tk x) = true) ->
  until F c item (flat_map tk l ++ Punct c :: r) = Some (map g l, r).
Proof.
  induction l as [|x l IH]; intros F L Fr I W; destruct F as [|F]; cbn in L; try lia.
  - cbn [flat_map app until]. rewrite try_yes. reflexivity.
  - cbn [flat_map map until]. rewrite <- app_assoc. rewrite try_no by (apply wordy_notp, W; now left). cbn [bind].
    rewrite I; [|now left|].
    + cbn [bind]. rewrite IH; [reflexivity|lia|exact Fr|intros; apply I; [now right|assumption]|intros; apply W; now right].
    + destruct l as [|y l]; [exact Fr|]. cbn [flat_map]. rewrite <- app_assoc. apply wordy_free, W. right. now left.
Qed.
Lemma some_until_ok {A X} (item : reads A) (tk : X -> list token) (g : X -> A) c r l F : l <> [] -> length l < F ->
  free (Punct c :: r) = true ->
  (forall x r, In x l -> free r = true -> item (tk x ++ r) = Some (g x, r)) -> (forall x, In x l -> wordy (tk x) = true) ->
  some_until F c item (flat_map tk l ++ Punct c :: r) = Some (map g l, r).
Proof. intros N L Fr I W. unfold some_until. rewrite (until_ok item tk g c r l F L Fr I W). cbn. destruct l; [congruence|reflexivity]. Qed.
Lemma wordy_len {X} (tk : X -> list token) l : (forall x, In x l -> wordy (tk x) = true) -> length l <= length (flat_map tk l).
Proof.
  induction l as [|x l IH]; intros H; [cbn; lia|]. cbn. rewrite app_length. pose proof (H x (or_introl eq_refl)) as K.
  assert (1 <= length (tk x)) by (destruct (tk x); [discriminate K|cbn; lia]). specialize (IH (fun y Y => H y (or_intror Y))). lia.
Qed.
Lemma in_len {X} (tk : X -> list token) l x : In x l -> length (tk x) <= length (flat_map tk l).
Proof. induction l as [|y l IH]; [easy|]. cbn. rewrite app_length. intros [->|I]; [lia|]. specialize (IH I). lia. Qed.

(** ** Values and types *)
Lemma read_value_app l : forall d v r s, read_value_in d l = Some (v, r) -> read_value_in d (l ++ s) = Some (v, r ++ s).
Proof.
  induction l as [|t l IH]; intros d v r s H; [discriminate H|]. cbn [read_value_in app] in *.
  assert (M : forall d', bind (read_value_in d' l) (fun v l => Some (t :: v, l)) = Some (v, r) ->
    bind (read_value_in d' (l ++ s)) (fun v l => Some (t :: v, l)) = Some (v, r ++ s)).
  { intros d' K. destruct (read_value_in d' l) as [[a b]|] eqn:E; [|discriminate K]. cbn in K. injection K as <- <-. rewrite (IH _ _ _ s E). reflexivity. }
  destruct t as [w|c|w|w]; try (destruct d; [injection H as <- <-; reflexivity|now apply M]).
  destruct (opening c); [now apply M|]. destruct (closing c).
  - destruct d as [|[|d]]; [discriminate H|injection H as <- <-; reflexivity|now apply M].
  - destruct (Ascii.eqb c ":"); [|discriminate H]. destruct d; [discriminate H|now apply M].
Qed.
Lemma value_read v r : value_text v -> read_value (value_tokens v ++ r) = Some (value_tokens v, r).
Proof. intros (l & A & B). unfold value_tokens. rewrite A. exact (read_value_app l 0 l [] r B). Qed.
Lemma types_read : (forall t F r, type_ok t -> length (tk_type t) < F -> notp "!" r = true -> read_type F (tk_type t ++ r) = Some (t, r)) /\
  (forall b F r, base_ok b -> length (tk_base b) < S F ->
    bind (try_punct "[" (tk_base b ++ r)) (fun x l =>
      if x then bind (read_type F l) (fun t l => bind (read_punct "]" l) (fun _ l => Some (PList t, l)))
      else bind (read_name l) (fun n l => Some (PNamed n, l))) = Some (b, r)).
Proof.
  apply types_ind.
  - intros b IH n F r H L N. destruct F as [|F]; [lia|]. cbn [tk_type] in *. rewrite app_length in L. cbn [read_type]. rewrite <- app_assoc.
    assert (K := IH F ((if n then [] else [Punct "!"]) ++ r) H ltac:(lia)). cbn [type_ok] in H.
    destruct (try_punct "[" (tk_base b ++ (if n then [] else [Punct "!"]) ++ r)) as [[x l]|]; cbn [bind] in K |- *; [|discriminate K].
    match goal with |- bind ?z _ = _ => replace z with (Some (b, (if n then [] else [Punct "!"%char]) ++ r)) end.
    cbn [bind]. destruct n; cbn [app]; [rewrite try_no by exact N|rewrite try_yes]; reflexivity.
  - intros n F r H L. cbn [tk_base app]. rewrite try_no by reflexivity. cbn [bind]. rewrite name_yes by exact H. reflexivity.
  - intros t IH F r H L. cbn [tk_base app] in *. rewrite try_yes. cbn [bind]. cbn [length] in L. rewrite app_length in L. cbn [length] in L.
    rewrite <- app_assoc. rewrite IH; [|exact H|lia|reflexivity]. cbn [bind app]. rewrite punct_yes. reflexivity.
Qed.
Lemma type_read t F r : type_ok t -> length (tk_type t) < F -> notp "!" r = true -> read_type F (tk_type t ++ r) = Some (t, r).
Proof. apply types_read. Qed.

(** ** Directives *)
Lemma arg_read a r : is_name (fst a) -> value_text (snd a) -> read_arg (tk_arg a ++ r) = Some ((fst a, value_tokens (snd a)), r).
Proof.
  intros N V. unfold read_arg, tk_arg. cbn [app]. rewrite name_yes by exact N. cbn [bind]. rewrite punct_yes. cbn [bind]. rewrite value_read by exact V. reflexivity.
Qed.
Lemma dir_read d F r : dir_ok d -> length (tk_dir d) < F -> notp "(" r = true -> read_dir F (tk_dir d ++ r) = Some (dir_told d, r).
Proof.
  intros H L N. pose proof (told_ok d H) as A. destruct H as [H _]. unfold read_dir, tk_dir, dir_told in *. cbn [app]. rewrite name_yes by exact H. cbn [bind].
  change (filter (fun a => negb (snd a =? "null")) (d_args d)) with (told_args d).
  destruct (told_args d) as [|x l] eqn:E.
  - cbn [tk_args app]. rewrite try_no by exact N. reflexivity.
  - cbn [tk_args app] in *. rewrite try_yes. cbn [bind]. rewrite <- app_assoc. cbn [app]. rewrite Forall_forall in A.
    rewrite some_until_ok with (g := fun a => (fst a, value_tokens (snd a))); [reflexivity|discriminate| |reflexivity| |reflexivity].
    + pose proof (wordy_len tk_arg (x :: l) (fun _ _ => eq_refl)) as K. cbn [length] in L. rewrite app_length in L. lia.
    + intros a s I _. destruct (A a I). now apply arg_read.
Qed.
Lemma each_after_dirs l : forall n F r, dirs_ok l -> length l < n -> length (tk_dirs l) < F -> notp "@" r = true -> notp "(" r = true ->
  each_after n "@" (read_dir F) (tk_dirs l ++ r) = Some (dirs_told l, r).
Proof.
  induction l as [|d l IH]; intros n F r H L LF N1 N2; destruct n as [|n]; cbn in L; try lia.
  - cbn [tk_dirs flat_map app each_after]. rewrite try_no by exact N1. reflexivity.
  - inversion_clear H as [|? ? Hd Hl]. cbn [tk_dirs flat_map] in *. fold (tk_dirs l) in *. cbn [each_after app] in *. rewrite try_yes. cbn [bind].
    cbn [length] in LF. rewrite app_length in LF. rewrite <- app_assoc. rewrite dir_read; [|exact Hd|lia|].
    + cbn [bind]. rewrite IH; [reflexivity|exact Hl|lia|lia|exact N1|exact N2].
    + destruct l as [|e l]; [exact N2|reflexivity].
Qed.
Lemma dirs_len l : length l <= length (tk_dirs l).
Proof. induction l as [|d l IH]; [cbn; lia|]. cbn [tk_dirs flat_map length]. rewrite app_length. fold (tk_dirs l). cbn [length]. lia. Qed.
Lemma dirs_read l F r : dirs_ok l -> length (tk_dirs l) < F -> notp "@" r = true -> notp "(" r = true -> read_dirs F (tk_dirs l ++ r) = Some (dirs_told l, r).
Proof. intros H L N1 N2. apply each_after_dirs; try assumption. pose proof (dirs_len l). lia. Qed.

(** ** Documentation *)
Lemma doc_read k o w r : doc_ok o -> try_doc (tk_doc k o ++ Word w :: r) = Some (o, Word w :: r).
Proof. destruct o as [d|]; [|reflexivity]. intros H. cbn [tk_doc app try_doc]. now rewrite block_one_line. Qed.
Lemma short_ok o : short_doc o -> doc_ok o. Proof. destruct o; cbn; tauto. Qed.

(** ** Fields *)
Ltac side := try assumption; try reflexivity; try (apply free_notp; [split; discriminate|assumption]); try lia; try (cbn [tk_dirs flat_map length]; lia); try (apply Forall_nil).
Lemma default_read o r : default_ok o -> free r = true ->
  bind (try_punct "=" (tk_default o ++ r)) (fun b l => if b then bind (read_value l) (fun v l => Some (Some v, l)) else Some (None, l)) = Some (option_map value_tokens o, r).
Proof.
  intros H F. destruct o as [v|]; cbn [tk_default app].
  - rewrite try_yes. cbn [bind]. rewrite value_read by exact H. reflexivity.
  - rewrite try_no by side. reflexivity.
Qed.
Lemma typed_read {A} n t F r (k : string -> ptype -> list token -> option (A * list token)) : is_name n -> type_ok t -> length (tk_type t) < F -> notp "!" r = true ->
  bind (read_name (tk_typed n t ++ r)) (fun n l => bind (read_punct ":" l) (fun _ l => bind (read_type F l) (fun t l => k n t l))) = k n t r.
Proof.
  intros N Ty L NP. unfold tk_typed. cbn [app]. rewrite name_yes by exact N. cbn [bind]. rewrite punct_yes. cbn [bind]. rewrite type_read by assumption. reflexivity.
Qed.
Lemma default_notp o r : free r = true -> notp "!" (tk_default o ++ r) = true.
Proof. intros H. destruct o; [reflexivity|]. cbn [tk_default app]. side. Qed.
Lemma argument_read a F r : argument_ok a -> length (tk_argument a) < F -> free r = true -> read_input F (tk_argument a ++ r) = Some (argument_told a, r).
Proof.
  intros (N & Ty & D) L Fr. unfold read_input, tk_argument in *. rewrite <- app_assoc. rewrite app_length in L. cbn [length tk_typed] in L.
  change (tk_typed (iv_name a) (iv_type a) ++ tk_default (iv_default a) ++ r) with (tk_doc 2 None ++ Word (iv_name a) :: (Punct ":" :: tk_type (iv_type a)) ++ tk_default (iv_default a) ++ r).
  rewrite doc_read by exact I. cbn [bind]. change (Word (iv_name a) :: (Punct ":" :: tk_type (iv_type a)) ++ tk_default (iv_default a) ++ r) with (tk_typed (iv_name a) (iv_type a) ++ tk_default (iv_default a) ++ r).
  rewrite typed_read; side; [|now apply default_notp].
  pose proof (default_read (iv_default a) r D Fr) as K.
  destruct (try_punct "=" (tk_default (iv_default a) ++ r)) as [[b l]|]; [|discriminate K]. cbn [bind] in K |- *. rewrite K. cbn [bind].
  change r with (tk_dirs [] ++ r) at 1. rewrite dirs_read; side.
Qed.
Lemma input_read i F r : input_ok i -> length (tk_input i) < F -> free r = true -> read_input F (tk_input i ++ r) = Some (input_told i, r).
Proof.
  intros ((N & Ty & D) & S & Di & Or) L Fr. unfold read_input, tk_input in *. rewrite <- !app_assoc. rewrite !app_length in L. cbn [length tk_typed] in L.
  change (tk_typed (iv_name i) (iv_type i) ++ ?x) with (Word (iv_name i) :: (Punct ":" :: tk_type (iv_type i)) ++ x).
  set (x := tk_dirs (iv_dirs i) ++ tk_default (iv_default i) ++ r).
  change (tk_typed (iv_name i) (iv_type i) ++ x) with (Word (iv_name i) :: (Punct ":" :: tk_type (iv_type i)) ++ x).
  rewrite doc_read by (now apply short_ok). cbn [bind]. change (Word (iv_name i) :: (Punct ":" :: tk_type (iv_type i)) ++ x) with (tk_typed (iv_name i) (iv_type i) ++ x).
  rewrite typed_read; side.
  2:{ subst x. destruct (iv_dirs i); [now apply default_notp|reflexivity]. }
  assert (K : exists y, bind (try_punct "=" x) (fun b l => if b then bind (read_value l) (fun v l => Some (Some v, l)) else Some (None, l)) = Some (option_map value_tokens (iv_default i), y)
     /\ y = tk_dirs (iv_dirs i) ++ r).
  { subst x. destruct Or as [-> | ->].
    - eexists. split; [|reflexivity]. cbn [tk_default app option_map]. rewrite try_no; [reflexivity|]. destruct (iv_dirs i); [|reflexivity]. cbn [tk_dirs flat_map app]. side.
    - eexists. split; [|reflexivity]. cbn [tk_dirs flat_map app]. now apply default_read. }
  destruct K as (y & K & ->). destruct (try_punct "=" x) as [[b l]|]; [|discriminate K]. cbn [bind] in K |- *. rewrite K. cbn [bind].
  rewrite dirs_read; side.
Qed.
Lemma field_read f F r : field_ok f -> length (tk_field f) < F -> free r = true -> read_field F (tk_field f ++ r) = Some (field_told f, r).
Proof.
  intros (Do & N & A & Ty & Di) L Fr. unfold read_field, tk_field in *. rewrite <- app_assoc. cbn [app] in *. rewrite doc_read by exact Do. cbn [bind].
  rewrite name_yes by exact N. cbn [bind]. rewrite <- app_assoc. rewrite app_length in L. cbn [length] in L. rewrite app_length in L. cbn [length app] in L |- *. rewrite app_length in L. rewrite <- app_assoc.
  assert (K : exists z, bind (try_punct "(" (tk_arguments (fd_args f) ++ z)) (fun b l => if b then some_until F ")" (read_input F) l else Some ([], l)) = Some (map argument_told (fd_args f), z)
     /\ z = Punct ":" :: tk_type (fd_type f) ++ tk_dirs (fd_dirs f) ++ r).
  { eexists. split; [|reflexivity]. destruct (fd_args f) as [|x l] eqn:E.
    - cbn [tk_arguments app]. rewrite try_no by reflexivity. reflexivity.
    - cbn [tk_arguments app]. rewrite try_yes. cbn [bind]. rewrite <- app_assoc. cbn [app]. rewrite Forall_forall in A.
      cbn [tk_arguments length] in L. rewrite app_length in L.
      apply some_until_ok; [discriminate| |reflexivity| |intros; reflexivity].
      + pose proof (wordy_len tk_argument (x :: l) (fun _ _ => eq_refl)) as K. lia.
      + intros a s I Fs. apply argument_read; [now apply A| |exact Fs]. pose proof (in_len tk_argument (x :: l) a I). lia. }
  destruct K as (z & K & ->). destruct (try_punct "(" (tk_arguments (fd_args f) ++ Punct ":" :: tk_type (fd_type f) ++ tk_dirs (fd_dirs f) ++ r)) as [[b l]|]; [|discriminate K].
  cbn [bind] in K |- *. rewrite K. cbn [bind]. rewrite punct_yes. cbn [bind]. rewrite type_read; side.
  2:{ destruct (fd_dirs f); [cbn [tk_dirs flat_map app]; side|reflexivity]. }
  cbn [bind]. rewrite dirs_read; side.
Qed.
Lemma value_def_read v F r : is_name (fst v) -> not_a_value (fst v) = true -> dirs_ok (snd v) -> length (tk_value v) < F -> free r = true ->
  read_enum_value F (tk_value v ++ r) = Some ((fst v, dirs_told (snd v)), r).
Proof.
  intros N V D L Fr. unfold read_enum_value, tk_value in *. cbn [app]. rewrite name_yes by exact N. cbn [bind]. rewrite V. cbn [length] in L. rewrite dirs_read; side.
Qed.

(** ** Definitions *)
Lemma parts_names c n l : parts [Punct c] (map (fun n => [Word n]) (n :: l)) = Word n :: flat_map (fun m => [Punct c; Word m]) l.
Proof. revert n. induction l as [|m l IH]; intros n; [reflexivity|]. specialize (IH m). cbn [map flat_map] in *. cbn [parts app]. f_equal. f_equal. exact IH. Qed.
Lemma names_read c l : forall F r, Forall is_name l -> length l < F -> notp c r = true ->
  each_after F c read_name (flat_map (fun m => [Punct c; Word m]) l ++ r) = Some (l, r).
Proof.
  induction l as [|n l IH]; intros F r H L N; destruct F as [|F]; cbn in L; try lia.
  - cbn [flat_map app each_after]. rewrite try_no by exact N. reflexivity.
  - inversion_clear H as [|? ? Hn Hl]. cbn [flat_map app each_after]. rewrite try_yes. cbn [bind]. rewrite name_yes by exact Hn. cbn [bind].
    rewrite IH; [reflexivity|exact Hl|lia|exact N].
Qed.
Lemma parted_read c l F r : l <> [] -> Forall is_name l -> length l <= F -> notp c r = true ->
  parted F c read_name (parts [Punct c] (map (fun n => [Word n]) l) ++ r) = Some (l, r).
Proof.
  destruct l as [|n l]; [congruence|]. intros _ H L N. inversion_clear H as [|? ? Hn Hl]. rewrite parts_names. unfold parted. cbn [app]. rewrite name_yes by exact Hn. cbn [bind].
  rewrite names_read; [reflexivity|exact Hl|cbn in L; lia|exact N].
Qed.
Lemma parts_len c l : length l <= length (parts [Punct c] (map (fun n => [Word n]) l)).
Proof. destruct l as [|n l]; [cbn; lia|]. rewrite parts_names. cbn [length]. induction l; cbn in *; lia. Qed.
Lemma implements_read l F r : Forall is_name l -> length (tk_implements l) < F -> (exists c s, r = Punct c :: s) -> notp "&" r = true ->
  read_implements F (tk_implements l ++ r) = Some (l, r).
Proof.
  intros H L (c & s & ->) N. destruct l as [|n l]; [reflexivity|]. cbn [tk_implements app read_implements length] in *.
  pose proof (parts_len "&" (n :: l)). rewrite try_no by (rewrite parts_names; reflexivity). cbn [bind]. apply parted_read; side. discriminate.
Qed.
Lemma block_read {A X} F (item : reads A) (tk : X -> list token) (g : X -> A) l r : l <> [] -> length (tk_block tk l) < F ->
  (forall x r, In x l -> length (tk x) < F -> free r = true -> item (tk x ++ r) = Some (g x, r)) -> (forall x, In x l -> wordy (tk x) = true) ->
  read_block F item (tk_block tk l ++ r) = Some (map g l, r).
Proof.
  intros N L I W. unfold read_block, tk_block in *. cbn [app length] in *. rewrite app_length in L. rewrite try_yes. cbn [bind]. rewrite <- app_assoc. cbn [app].
  apply some_until_ok; side. - pose proof (wordy_len tk l W). lia. - intros x s Hx Fs. apply I; side. pose proof (in_len tk l x Hx). lia.
Qed.
Lemma wordy_input i : wordy (tk_input i) = true. Proof. unfold tk_input, tk_typed. destruct (iv_doc i); reflexivity. Qed.
Lemma wordy_field f : wordy (tk_field f) = true. Proof. unfold tk_field. destruct (fd_doc f); reflexivity. Qed.
Lemma block_head {X} (tk : X -> list token) ds l r : exists c s, tk_dirs ds ++ tk_block tk l ++ r = Punct c :: s.
Proof. destruct ds; cbn; eauto. Qed.
Lemma block_notp {X} c (tk : X -> list token) ds l r : c <> "@"%char -> c <> "{"%char -> notp c (tk_dirs ds ++ tk_block tk l ++ r) = true.
Proof. intros A B. destruct ds; cbn; apply negb_true_iff, Ascii.eqb_neq; assumption. Qed.

Ltac lens := repeat (progress (rewrite ?app_length in *; cbn [length app] in * )).
Lemma def_read t F r : type_def_ok t -> length (tk_def t) < F -> free r = true -> read_def F (tk_def t ++ r) = Some (type_told t, r).
Proof.
  intros [N H] L Fr. unfold read_def, tk_def, type_told in *. destruct (td_kind t) as [|is fs|is fs|ms|vs|fs].
  - rewrite <- app_assoc. cbn [app]. rewrite doc_read by (now apply short_ok). cbn [bind]. cbv beta iota.
    rewrite name_yes by exact N. cbn [bind]. change r with (tk_dirs [] ++ r) at 1. rewrite dirs_read; side.
  - destruct H as (Do & Di & I & Ne & Fs). rewrite <- !app_assoc. cbn [app]. rewrite doc_read by exact Do. cbn [bind]. cbv beta iota.
    rewrite name_yes by exact N. cbn [bind]. rewrite !app_length in L.
    rewrite implements_read; side; [|apply block_head|apply block_notp; discriminate]. cbn [bind]. rewrite dirs_read; side. cbn [bind].
    rewrite block_read with (g := field_told); side; [|intros; apply wordy_field].
    intros f s X Lf Fx. apply field_read; side. rewrite Forall_forall in Fs. now apply Fs.
  - destruct H as (I & Ne & Fs). rewrite <- !app_assoc. cbn [app]. rewrite !app_length in L. cbn [try_doc bind]. cbv beta iota.
    rewrite name_yes by exact N. cbn [bind]. rewrite implements_read; side; [|eexists; eexists; reflexivity]. cbn [bind].
    change (tk_block tk_field fs ++ r) with (tk_dirs [] ++ tk_block tk_field fs ++ r). rewrite dirs_read; side. cbn [bind].
    rewrite block_read with (g := field_told); side; [|intros; apply wordy_field].
    intros f s X Lf Fx. apply field_read; side. rewrite Forall_forall in Fs. now apply Fs.
  - destruct H as (Di & Ne & Fs). rewrite <- !app_assoc. cbn [app]. rewrite !app_length in L. cbn [try_doc bind]. cbv beta iota.
    rewrite name_yes by exact N. cbn [bind]. rewrite dirs_read; side. cbn [bind]. rewrite try_yes. cbn [bind].
    rewrite try_no. 2:{ destruct ms as [|n ms]; [congruence|]. rewrite parts_names. reflexivity. }
    cbn [bind]. pose proof (parts_len "|" ms). rewrite parted_read; side.
  - destruct H as (Do & Di & Ne & Fs). rewrite <- !app_assoc. cbn [app]. rewrite doc_read by exact Do. cbn [bind]. cbv beta iota.
    rewrite name_yes by exact N. cbn [bind]. rewrite !app_length in L. rewrite dirs_read; side. cbn [bind].
    rewrite block_read with (g := fun v => (fst v, dirs_told (snd v))); side.
    intros v s X Lf Fx. rewrite Forall_forall in Fs. destruct (Fs v X) as (? & ? & ?). apply value_def_read; side.
  - destruct H as (Do & Di & Ne & Fs). rewrite <- !app_assoc. cbn [app]. rewrite doc_read by (now apply short_ok). cbn [bind]. cbv beta iota.
    rewrite name_yes by exact N. cbn [bind]. rewrite !app_length in L. rewrite dirs_read; side. cbn [bind].
    rewrite block_read with (g := input_told); side; [|intros; apply wordy_input].
    intros f s X Lf Fx. apply input_read; side. rewrite Forall_forall in Fs. now apply Fs.
Qed.

(** ** The schema and the whole document *)
Definition roots_of (s : schema_def Args) : list (string * string) :=
  (match sd_query s with Some n => [("query", n)] | None => [] end ++ match sd_mutation s with Some n => [("mutation", n)] | None => [] end)
  ++ match sd_subscription s with Some n => [("subscription", n)] | None => [] end.
Definition tk_pair (kn : string * string) : list token := [Word (fst kn); Punct ":"; Word (snd kn)].
Lemma roots_tokens s : tk_root "query" (sd_query s) ++ tk_root "mutation" (sd_mutation s) ++ tk_root "subscription" (sd_subscription s) = flat_map tk_pair (roots_of s).
Proof. unfold roots_of. destruct (sd_query s), (sd_mutation s), (sd_subscription s); reflexivity. Qed.
Lemma schema_read s F r : def_ok (DSchema s) -> length (tk_schema s) < F -> free r = true ->
  (tk_schema s = [] /\ schema_told s = []) \/ exists d, read_def F (tk_schema s ++ r) = Some (d, r) /\ schema_told s = [d] /\ wordy (tk_schema s) = true.
Proof.
  intros (Di & Q & M & S) L Fr. unfold tk_schema, schema_told in *. rewrite roots_tokens in *.
  assert (K : length (Word "schema" :: tk_dirs (sd_dirs s) ++ Punct "{" :: flat_map tk_pair (roots_of s) ++ [Punct "}"]) < F -> roots_of s <> [] ->
    read_def F ((Word "schema" :: tk_dirs (sd_dirs s) ++ Punct "{" :: flat_map tk_pair (roots_of s) ++ [Punct "}"]) ++ r) = Some (RSchema (dirs_told (sd_dirs s)) (roots_of s), r)).
  { intros L' Ne. unfold read_def. cbn [app length] in *. rewrite app_length in L'. cbn [length] in L'. rewrite app_length in L'. cbn [try_doc bind]. cbv beta iota.
    rewrite <- app_assoc. rewrite dirs_read; side. cbn [bind app]. rewrite punct_yes. cbn [bind]. rewrite <- app_assoc. cbn [app].
    rewrite some_until_ok with (g := fun x => x); [cbn [bind]; rewrite map_id; reflexivity|exact Ne| |reflexivity| |reflexivity].
    - pose proof (wordy_len tk_pair (roots_of s) (fun _ _ => eq_refl)). lia.
    - intros [k n] z I _. unfold tk_pair, read_root. cbn [fst snd app].
      assert (Kn : is_name k /\ existsb (String.eqb k) ["query"; "mutation"; "subscription"] = true /\ is_name n).
      { unfold roots_of in I. rewrite !in_app_iff in I. destruct (sd_query s), (sd_mutation s), (sd_subscription s); cbn in I;
          repeat match goal with H : _ \/ _ |- _ => destruct H | H : False |- _ => destruct H | H : (_, _) = (_, _) |- _ => injection H as <- <- end; repeat split; assumption. }
      destruct Kn as (K1 & K2 & K3). rewrite name_yes by exact K1. cbn [bind]. rewrite K2. rewrite punct_yes. cbn [bind]. rewrite name_yes by exact K3. reflexivity. }
  unfold roots_of in *. destruct (sd_mutation s) as [m|], (sd_query s) as [q|]; try (left; split; reflexivity);
    (right; eexists; split; [apply K; [exact L|discriminate]|split; [cbn [app]; reflexivity|reflexivity]]).
Qed.
(** Definitions one after the other *)
Definition good (F : nat) (x : list token * list r_def) : Prop :=
  (fst x = [] /\ snd x = []) \/ exists d, snd x = [d] /\ wordy (fst x) = true /\ forall r, free r = true -> read_def F (fst x ++ r) = Some (d, r).
Lemma good_free F l : Forall (good F) l -> free (List.concat (map fst l)) = true.
Proof.
  induction 1 as [|x l H _ IH]; [reflexivity|]. cbn [map List.concat]. destruct H as [[-> _]|(d & _ & W & _)]; [exact IH|]. now apply wordy_free.
Qed.
Lemma defs_read F l : forall n, Forall (good F) l -> length (List.concat (map fst l)) <= n -> read_defs F n (List.concat (map fst l)) = Some (List.concat (map snd l)).
Proof.
  induction l as [|x l IH]; intros n G L; [destruct n; reflexivity|]. inversion_clear G as [|? ? H Hl]. cbn [map List.concat] in *. rewrite app_length in L.
  destruct H as [[E1 E2]|(d & E & W & R)].
  - rewrite E1, E2 in *. cbn [app]. apply IH; [exact Hl|cbn in L; lia].
  - rewrite E. assert (1 <= length (fst x)) by (destruct (fst x); [discriminate W|cbn; lia]). destruct n as [|n]; [lia|].
    specialize (R (List.concat (map fst l)) (good_free F l Hl)). specialize (IH n Hl ltac:(lia)).
    destruct (fst x ++ List.concat (map fst l)) as [|t z] eqn:Z; [destruct (fst x); [discriminate W|discriminate Z]|].
    cbn [read_defs]. rewrite R, IH. reflexivity.
Qed.
Definition pieces (doc : document Args) : list (list token * list r_def) :=
  flat_map (fun d => match d with DSchema s => [(tk_schema s, schema_told s)] | _ => [] end) doc ++
  flat_map (fun n => flat_map (fun d : definition Args => match d with DType t => if Nat.eqb (rank (td_kind t)) n then [(tk_def t, [type_told t])] else [] | _ => [] end) doc) [0; 1; 2; 3; 4; 5].
Lemma map_flat {A B C} (g : B -> C) (f : A -> list B) l : map g (flat_map f l) = flat_map (fun x => map g (f x)) l.
Proof. induction l; cbn; [reflexivity|]. now rewrite map_app, IHl. Qed.
Lemma concat_flat {A B} (f : A -> list (list B)) l : List.concat (flat_map f l) = flat_map (fun x => List.concat (f x)) l.
Proof. induction l; cbn; [reflexivity|]. now rewrite concat_app, IHl. Qed.
Lemma pieces_tokens doc : map fst (pieces doc) = tk_defs doc.
Proof.
  unfold pieces, tk_defs. rewrite map_app, !map_flat. f_equal; [apply flat_map_ext; now intros []|]. apply flat_map_ext. intros n. rewrite map_flat.
  apply flat_map_ext. intros [s|t|]; [reflexivity| |reflexivity]. destruct (Nat.eqb _ n); reflexivity.
Qed.
Lemma pieces_told doc : List.concat (map snd (pieces doc)) = told doc.
Proof.
  unfold pieces, told, schemas_told, types_told. rewrite map_app, concat_app, !map_flat, !concat_flat. f_equal.
  - apply flat_map_ext. intros [s|t|]; cbn; [apply app_nil_r|reflexivity|reflexivity].
  - apply flat_map_ext. intros n. rewrite map_flat, concat_flat. apply flat_map_ext. intros [s|t|]; [reflexivity| |reflexivity]. destruct (Nat.eqb _ n); reflexivity.
Qed.
Lemma doc_wordy t : wordy (tk_def t) = true.
Proof. unfold tk_def. destruct (td_kind t); try reflexivity; destruct (td_doc t); reflexivity. Qed.
Lemma document_read doc : readable doc -> read (print "" doc) = Some (told doc).
Proof.
  intros R. unfold read. pose proof (t_print doc R) as E. unfold T in E. rewrite E. rewrite <- pieces_told, <- pieces_tokens in *.
  apply defs_read; [|lia]. unfold readable in R. rewrite Forall_forall in R. apply Forall_forall. intros x X.
  assert (Lx : length (fst x) < S (length (List.concat (map fst (pieces doc))))).
  { apply Nat.lt_succ_r. apply (in_map fst) in X. clear -X. induction (map fst (pieces doc)) as [|y l IH]; [destruct X|]. cbn. rewrite app_length. destruct X as [->|X]; [lia|]. specialize (IH X). lia. }
  unfold pieces in X. rewrite in_app_iff, !in_flat_map in X. destruct X as [(d & D & X)|(n & _ & X)].
  - destruct d as [s|t|]; [|destruct X|destruct X]. destruct X as [<-|[]]. cbn [fst snd] in Lx. pose proof (R _ D) as O.
    destruct (schema_read s _ [] O Lx eq_refl) as [[A B]|(d & _ & B & W)]; [left; now split|]. right. exists d. split; [exact B|]. split; [exact W|].
    intros r Fr. destruct (schema_read s _ r O Lx Fr) as [[A _]|(d' & A & B' & _)]; [cbn [fst] in *; rewrite A in W; discriminate W|]. rewrite B in B'. injection B' as <-. exact A.
  - apply in_flat_map in X. destruct X as (d & D & X). destruct d as [s|t|]; [destruct X| |destruct X]. destruct (Nat.eqb _ n); [|destruct X]. destruct X as [<-|[]]. cbn [fst snd] in *.
    right. exists (type_told t). split; [reflexivity|]. split; [apply doc_wordy|]. intros r Fr. apply def_read; [exact (R _ D)|exact Lx|exact Fr].
Qed.

Ltac middle :=
  match goal with
  | |- Permutation (?x :: _) (?x :: _) => apply Permutation_refl
  | |- Permutation (?a ++ _) (?x :: ?a ++ ?r) => apply Permutation_trans with (a ++ x :: r); [apply Permutation_app_head; middle | apply Permutation_sym, Permutation_middle]
  end.
Lemma told_types doc : Permutation (flat_map (types_told doc) [0; 1; 2; 3; 4; 5]) (map type_told (types_of doc)).
Proof.
  cbn [flat_map]. rewrite app_nil_r. induction doc as [|d doc IH]; [constructor|]. destruct d as [s|t|]; [exact IH| |exact IH].
  cbn [types_of flat_map app map]. unfold types_told in *. cbn [flat_map]. fold (types_of doc).
  destruct (td_kind t); cbn [rank Nat.eqb app]; try (constructor; exact IH);
    (eapply Permutation_trans; [|apply perm_skip, IH]); middle.
Qed.
