(** Proofs about the texts of documents: their tokens *)
From Coq Require Import String Ascii ZArith NArith Bool Arith List Lia.
From Verif Require Import Base TypeModel DocModel OpGenModel StringFacts PrModel PrSpec.
Import ListNotations.
Open Scope string_scope.
Open Scope list_scope.

Definition pre (l : list token) (o : option (list token)) : option (list token) := match o with Some m => Some (l ++ m) | None => None end.
Lemma pre_nil o : pre [] o = o. Proof. destruct o; reflexivity. Qed.
Lemma pre_pre a b o : pre a (pre b o) = pre (a ++ b) o. Proof. destruct o; cbn; [rewrite app_assoc|]; reflexivity. Qed.

Definition delim (s : string) : bool := match s with "" => true | String c _ => (negb (word_char c) && negb (is_quote c))%bool end.

Lemma lex_app a : forall p l s, tokens_from p a = Some l -> delim s = true -> tokens_from p (a ++ s)%string = pre l (tokens s).
Proof.
  induction a as [|c a IH]; intros p l s H D; cbn [append tokens_from] in *.
  - unfold tokens. destruct p as [|w|[]|raw|raw|raw q|raw q]; cbn in H; try discriminate H; injection H as <-.
    + now rewrite pre_nil.
    + destruct s as [|c s]; [reflexivity|]. cbn in D. apply andb_prop in D as [D _]. apply negb_true_iff in D. cbn [tokens_from step]. rewrite D.
      destruct (start c) as [[l p]|]; cbn [after]; [|reflexivity]. destruct (tokens_from p s); reflexivity.
    + destruct s as [|c s]; [reflexivity|]. cbn in D. apply andb_prop in D as [_ D]. apply negb_true_iff in D. cbn [tokens_from step]. rewrite D.
      destruct (start c) as [[l p]|]; cbn [after]; [|reflexivity]. destruct (tokens_from p s); reflexivity.
  - destruct (step p c) as [[m p']|]; [|discriminate H]. destruct (tokens_from p' a) as [n|] eqn:E; [|discriminate H]. injection H as <-.
    rewrite (IH p' n s E D). destruct (tokens s); cbn; [rewrite app_assoc|]; reflexivity.
Qed.

Fixpoint runs (p : place) (s : string) : option (list token * place) :=
  match s with
  | "" => Some ([], p)
  | String c t => match step p c with Some (l, p) => match runs p t with Some (m, q) => Some (l ++ m, q) | None => None end | None => None end
  end.
Lemma runs_app a : forall p l q s, runs p a = Some (l, q) -> runs p (a ++ s)%string = match runs q s with Some (m, x) => Some (l ++ m, x) | None => None end.
Proof.
  induction a as [|c a IH]; intros p l q s H; cbn [append runs] in *.
  - injection H as <- <-. destruct (runs p s) as [[m x]|]; reflexivity.
  - destruct (step p c) as [[m p']|]; [|discriminate H]. destruct (runs p' a) as [[n x]|] eqn:E; [|discriminate H]. injection H as <- <-.
    rewrite (IH p' n x s E). destruct (runs x s) as [[k y]|]; cbn; [rewrite app_assoc|]; reflexivity.
Qed.
Lemma lex_runs a : forall p l q s, runs p a = Some (l, q) -> tokens_from p (a ++ s)%string = pre l (tokens_from q s).
Proof.
  induction a as [|c a IH]; intros p l q s H; cbn [append runs tokens_from] in *.
  - injection H as <- <-. now rewrite pre_nil.
  - destruct (step p c) as [[m p']|]; [|discriminate H]. destruct (runs p' a) as [[n x]|] eqn:E; [|discriminate H]. injection H as <- <-.
    rewrite (IH p' n x s E). destruct (tokens_from x s); cbn; [rewrite app_assoc|]; reflexivity.
Qed.

Definition T (s : string) (l : list token) : Prop := tokens s = Some l.
Definition C (s : string) (l : list token) : Prop := runs Between s = Some (l, Between).
Lemma t_closed a l s m : C a l -> T s m -> T (a ++ s)%string (l ++ m).
Proof. unfold C, T, tokens. intros A B. rewrite (lex_runs a _ _ _ s A), B. reflexivity. Qed.
Lemma t_delim a l s m : T a l -> delim s = true -> T s m -> T (a ++ s)%string (l ++ m).
Proof. unfold T. intros A D B. unfold tokens. rewrite (lex_app a _ _ s A D), B. reflexivity. Qed.
Lemma c_app a l b m : C a l -> C b m -> C (a ++ b)%string (l ++ m).
Proof. unfold C. intros A B. rewrite (runs_app a _ _ _ b A), B. reflexivity. Qed.
Lemma c_t s l : C s l -> T s l.
Proof. intros A. rewrite <- (app_nil_r l). rewrite <- (str_app_nil_r s). apply t_closed; [exact A|reflexivity]. Qed.
Lemma delim_app a b : delim a = true -> delim b = true -> delim (a ++ b)%string = true.
Proof. destruct a; [easy|]. easy. Qed.

(** ** White space at the end *)
Lemma white_step p c l q m : is_white c = true -> step p c = Some (l, q) -> finish q = Some m -> finish p = Some (l ++ m).
Proof.
  intros W S F.
  assert (W' : word_char c = false /\ is_quote c = false) by (clear -W; destruct c as [[] [] [] [] [] [] [] []]; vm_compute in W |- *; try discriminate W; split; reflexivity).
  assert (I : forall x, start c = Some x -> x = ([], Between)) by (clear -W; intros x; destruct c as [[] [] [] [] [] [] [] []]; vm_compute in W |- *; try discriminate W; intros H; congruence).
  assert (IN : forall raw x y, inner raw c = Some (x, y) -> finish y = Some m -> False).
  { intros raw x y E Fy. unfold inner in E. destruct W' as [_ Q]. rewrite Q in E. destruct (backslash c); [injection E as <- <-; discriminate Fy|].
    destruct (line_end c); [discriminate E|]. injection E as <- <-. discriminate Fy. }
  assert (LN : forall raw, finish (lines raw c) = Some m -> False) by (intros raw; unfold lines; destruct (backslash c); discriminate).
  destruct p as [|w|[]|raw|raw|raw k|raw k]; cbn [step] in S; destruct W' as [W1 W2]; rewrite ?W1, ?W2 in S.
  - apply I in S. injection S as -> ->. exact F.
  - destruct (start c) as [x|] eqn:E; [|discriminate S]. pose proof (I _ eq_refl) as ->. cbn in S. injection S as <- <-. cbn in F. injection F as <-. reflexivity.
  - destruct (start c) as [x|] eqn:E; [|discriminate S]. pose proof (I _ eq_refl) as ->. cbn in S. injection S as <- <-. cbn in F. injection F as <-. reflexivity.
  - destruct (IN _ _ _ S F).
  - destruct (IN _ _ _ S F).
  - destruct (line_end c); [discriminate S|]. injection S as <- <-. discriminate F.
  - injection S as <- <-. destruct (LN _ F).
  - injection S as <- <-. destruct (LN _ F).
Qed.
Lemma trim_tokens s : forall p l, tokens_from p s = Some l -> tokens_from p (trim_end s) = Some l.
Proof.
  induction s as [|c s IH]; intros p l H; [exact H|]. cbn [tokens_from trim_end] in *.
  destruct (step p c) as [[m q]|] eqn:S; [|discriminate H]. destruct (tokens_from q s) as [n|] eqn:E; [|discriminate H]. injection H as <-.
  pose proof (IH _ _ E) as K. destruct (trim_end s) as [|d r].
  - destruct (is_white c) eqn:W.
    + cbn in K |- *. exact (white_step _ _ _ _ _ W S K).
    + cbn [tokens_from] in K |- *. rewrite S, K. reflexivity.
  - cbn [tokens_from]. rewrite S. cbn [tokens_from] in K. now rewrite K.
Qed.
Lemma trim_newlines_tokens s : forall p l, tokens_from p s = Some l -> tokens_from p (trim_newlines s) = Some l.
Proof.
  induction s as [|c s IH]; intros p l H; [exact H|]. cbn [tokens_from trim_newlines] in *.
  destruct (step p c) as [[m q]|] eqn:S; [|discriminate H]. destruct (tokens_from q s) as [n|] eqn:E; [|discriminate H]. injection H as <-.
  pose proof (IH _ _ E) as K. destruct (trim_newlines s) as [|d r].
  - destruct (Ascii.eqb c (ascii_of_nat 10)) eqn:W.
    + apply Ascii.eqb_eq in W. subst c. cbn [tokens_from] in K |- *. exact (white_step _ (ascii_of_nat 10) _ _ _ eq_refl S K).
    + cbn [tokens_from] in K |- *. rewrite S, K. reflexivity.
  - cbn [tokens_from]. rewrite S. cbn [tokens_from] in K. now rewrite K.
Qed.

(** ** Names *)
Lemma letter_word c : (letter c || digit c)%bool = true -> word_char c = true.
Proof. unfold word_char. intros ->. reflexivity. Qed.
Lemma word_start c : word_char c = true -> start c = Some ([], In_word (one c)).
Proof. intros H. destruct c as [[] [] [] [] [] [] [] []]; vm_compute in H; try discriminate H; reflexivity. Qed.
Lemma in_word_all s : forall w, all_chars word_char s = true -> tokens_from (In_word w) s = Some [Word (w ++ s)%string].
Proof.
  induction s as [|c s IH]; intros w H; cbn [all_chars] in H.
  - cbn. now rewrite str_app_nil_r.
  - apply andb_prop in H as [H1 H2]. cbn [tokens_from step]. rewrite H1, (IH _ H2). cbn [app]. unfold one. rewrite str_app_assoc. reflexivity.
Qed.
Lemma all_chars_impl (p q : ascii -> bool) s : (forall c, p c = true -> q c = true) -> all_chars p s = true -> all_chars q s = true.
Proof. intros I. induction s as [|c s IH]; [easy|]. cbn. intros H. apply andb_prop in H as [A B]. now rewrite (I _ A), (IH B). Qed.
Lemma t_name n : is_name n -> T n [Word n].
Proof.
  unfold is_name, name, T, tokens. destruct n as [|c n]; [discriminate|]. intros H. apply andb_prop in H as [A B].
  cbn [tokens_from step]. rewrite word_start by (apply letter_word; now rewrite A). rewrite in_word_all by (exact (all_chars_impl _ _ _ letter_word B)). reflexivity.
Qed.

(** ** Lists of texts *)
Fixpoint parts (sep : list token) (l : list (list token)) : list token :=
  match l with [] => [] | [x] => x | x :: r => x ++ sep ++ parts sep r end.
Lemma parts_nil l : parts [] l = List.concat l.
Proof. induction l as [|x [|y r] IH]; [reflexivity|cbn; now rewrite app_nil_r|]. change (x ++ parts [] (y :: r) = x ++ List.concat (y :: r)). now rewrite IH. Qed.
Lemma t_concat sep ls l m : C sep ls -> sep <> "" -> delim sep = true -> Forall2 T l m -> T (String.concat sep l) (parts ls m).
Proof.
  intros Cs N D F. induction F as [|x a l m X F IH]; [reflexivity|].
  destruct F as [|y b l m Y F]; [exact X|].
  change (String.concat sep (x :: y :: l)) with (x ++ sep ++ String.concat sep (y :: l))%string.
  change (parts ls (a :: b :: m)) with (a ++ ls ++ parts ls (b :: m)).
  apply t_delim; [exact X|destruct sep; [congruence|exact D]|]. apply t_closed; [exact Cs|exact IH].
Qed.
Lemma t_map {A} (f : A -> string) (g : A -> list token) l : (forall x, In x l -> T (f x) (g x)) -> Forall2 T (map f l) (map g l).
Proof. induction l as [|x l IH]; intros H; constructor; [apply H; now left|apply IH; intros y Y; apply H; now right]. Qed.
Lemma t_lines {A} sep (f : A -> string) (g : A -> list token) l :
  C sep [] -> sep <> "" -> delim sep = true -> (forall x, In x l -> T (f x) (g x)) -> T (String.concat sep (map f l)) (flat_map g l).
Proof. intros S N D H. rewrite flat_map_concat_map, <- parts_nil. apply t_concat; try assumption. now apply t_map. Qed.

(** ** Types *)
Fixpoint tk_type (t : ptype) : list token := match t with PType b nullable => tk_base b ++ (if nullable then [] else [Punct "!"]) end
with tk_base (b : pbase) : list token := match b with PNamed n => [Word n] | PList t => Punct "[" :: tk_type t ++ [Punct "]"] end.
Scheme ptype_mut := Induction for ptype Sort Prop with pbase_mut := Induction for pbase Sort Prop.
Combined Scheme types_ind from ptype_mut, pbase_mut.
Lemma t_types : (forall t, type_ok t -> T (PrModel.type_text t) (tk_type t)) /\ (forall b, base_ok b -> T (base_text b) (tk_base b)).
Proof.
  apply types_ind.
  - intros b IH n H. cbn [PrModel.type_text tk_type]. apply t_delim; [now apply IH|destruct n; reflexivity|destruct n; reflexivity].
  - intros n H. now apply t_name.
  - intros t IH H. cbn [base_text tk_base]. change (Punct "[" :: tk_type t ++ [Punct "]"]) with ([Punct "["] ++ tk_type t ++ [Punct "]"]).
    apply t_closed; [reflexivity|]. apply t_delim; [now apply IH|reflexivity|reflexivity].
Qed.
Lemma t_type t : type_ok t -> T (PrModel.type_text t) (tk_type t). Proof. apply t_types. Qed.

(** ** Directives *)
Lemma t_value v : value_text v -> T v (value_tokens v).
Proof. intros (l & A & _). unfold T, value_tokens. now rewrite A. Qed.
Definition tk_arg (a : string * string) : list token := Word (fst a) :: Punct ":" :: value_tokens (snd a).
Definition tk_args (l : list (string * string)) : list token := match l with [] => [] | l => Punct "(" :: flat_map tk_arg l ++ [Punct ")"] end.
Definition tk_dir (d : directive) : list token := Word (d_name d) :: tk_args (told_args d).
Definition tk_dirs (l : list directive) : list token := flat_map (fun d => Punct "@" :: tk_dir d) l.
Lemma told_ok d : dir_ok d -> Forall (fun a => is_name (fst a) /\ value_text (snd a)) (told_args d).
Proof. intros [_ A]. unfold told_args. apply Forall_forall. intros x X. apply filter_In in X as [X _]. rewrite Forall_forall in A. now apply A. Qed.
Lemma t_arg a : is_name (fst a) -> value_text (snd a) -> T (fst a ++ ": " ++ snd a)%string (tk_arg a).
Proof.
  intros N V. unfold tk_arg. change (Word (fst a) :: Punct ":" :: value_tokens (snd a)) with ([Word (fst a)] ++ [Punct ":"] ++ value_tokens (snd a)).
  apply t_delim; [now apply t_name|reflexivity|]. apply t_closed; [reflexivity|now apply t_value].
Qed.
Lemma concat_empty sep f (l : list (string * string)) : (forall a, In a l -> f a <> "") -> String.eqb (String.concat sep (map f l)) "" = match l with [] => true | _ => false end.
Proof.
  destruct l as [|x l]; [reflexivity|]. intros H. specialize (H x (or_introl eq_refl)). apply String.eqb_neq. destruct l as [|y l]; [exact H|].
  change (f x ++ sep ++ String.concat sep (map f (y :: l)) <> "")%string. destruct (f x); [congruence|]. discriminate.
Qed.
Lemma name_not_empty n : is_name n -> n <> "". Proof. intros H ->. discriminate H. Qed.
Lemma t_directive d : dir_ok d -> T (print_directive d) (Punct "@" :: tk_dir d).
Proof.
  intros H. pose proof (told_ok d H) as A. destruct H as [N _]. unfold print_directive, tk_dir.
  set (f := fun a : string * string => (fst a ++ ": " ++ snd a)%string). rewrite concat_empty.
  2:{ intros a _. unfold f. destruct (fst a); discriminate. }
  destruct (told_args d) as [|x l] eqn:E.
  - change (T ("@" ++ d_name d) ([Punct "@"] ++ [Word (d_name d)])). apply t_closed; [reflexivity|now apply t_name].
  - change (T ("@" ++ d_name d ++ "(" ++ String.concat ", " (map f (x :: l)) ++ ")")%string ([Punct "@"] ++ [Word (d_name d)] ++ [Punct "("] ++ flat_map tk_arg (x :: l) ++ [Punct ")"])).
    apply t_closed; [reflexivity|]. apply t_delim; [now apply t_name|reflexivity|]. apply t_closed; [reflexivity|].
    apply t_delim; [|reflexivity|reflexivity]. apply t_lines; [reflexivity|discriminate|reflexivity|].
    intros a I. rewrite Forall_forall in A. destruct (A a I). now apply t_arg.
Qed.
Lemma print_directive_head d : exists s, print_directive d = String "@" s.
Proof. unfold print_directive. destruct (String.eqb _ ""); eexists; reflexivity. Qed.
Lemma t_directives ds : dirs_ok ds -> T (print_directives ds) (tk_dirs ds).
Proof. intros H. unfold print_directives, tk_dirs. apply t_lines; [reflexivity|discriminate|reflexivity|]. unfold dirs_ok in H. rewrite Forall_forall in H. intros d D. apply t_directive. now apply H. Qed.
Lemma print_pos_cases ds :
  (ds = [] /\ print_pos_directives ds = "") \/ (ds <> [] /\ print_pos_directives ds = (print_directives ds ++ " ")%string /\ exists s, print_directives ds = String "@" s).
Proof.
  destruct ds as [|d ds]; [left; split; reflexivity|right]. split; [discriminate|]. destruct (print_directive_head d) as [s E].
  assert (H : exists s, print_directives (d :: ds) = String "@" s).
  { unfold print_directives. cbn [map]. destruct ds as [|e ds]; [exists s; exact E|].
    exists (s ++ " " ++ String.concat " " (map print_directive (e :: ds)))%string.
    change (print_directive d ++ " " ++ String.concat " " (map print_directive (e :: ds)) = String "@" (s ++ " " ++ String.concat " " (map print_directive (e :: ds))))%string.
    rewrite E. reflexivity. }
  split; [|exact H]. destruct H as [x X]. unfold print_pos_directives. rewrite X. reflexivity.
Qed.
Lemma pos_delim ds : delim (print_pos_directives ds) = true.
Proof. destruct (print_pos_cases ds) as [[_ ->]|(_ & -> & s & ->)]; reflexivity. Qed.
Lemma runs_space s : forall p l, tokens_from p s = Some l -> runs p (s ++ " ")%string = Some (l, Between).
Proof.
  induction s as [|c s IH]; intros p l H; cbn [tokens_from append runs] in *.
  - destruct p as [|w|[]|raw|raw|raw q|raw q]; cbn in H; try discriminate H; injection H as <-; reflexivity.
  - destruct (step p c) as [[m q]|]; [|discriminate H]. destruct (tokens_from q s) as [n|] eqn:E; [|discriminate H]. injection H as <-.
    rewrite (IH _ _ E). reflexivity.
Qed.
Lemma c_snoc_space s l : T s l -> C (s ++ " ")%string l.
Proof. apply runs_space. Qed.
Lemma c_pos ds : dirs_ok ds -> C (print_pos_directives ds) (tk_dirs ds).
Proof.
  intros H. destruct (print_pos_cases ds) as [[-> ->]|(_ & -> & _)]; [reflexivity|]. apply c_snoc_space. now apply t_directives.
Qed.

(** ** Documentation *)
Definition tk_doc (k : nat) (o : option string) : list token :=
  match o with Some d => [Block (newline ++ spaces k ++ d ++ newline ++ spaces k)%string] | None => [] end.
Definition plain (c : ascii) : bool := negb (is_quote c || backslash c).
Lemma runs_plain s : forall raw, all_chars plain s = true -> runs (Lines raw 0) s = Some ([], Lines (raw ++ s)%string 0).
Proof.
  induction s as [|c s IH]; intros raw H; cbn [all_chars] in H.
  - cbn. now rewrite str_app_nil_r.
  - apply andb_prop in H as [A B]. unfold plain in A. apply negb_true_iff in A. apply orb_false_iff in A as [Q S].
    cbn [runs step]. rewrite Q. unfold lines. rewrite S. cbn [quotes_of]. rewrite str_app_nil_r. rewrite (IH _ B). cbn [app].
    unfold one. rewrite str_app_assoc. reflexivity.
Qed.
Lemma c_block x : all_chars plain x = true -> C (quotes ++ x ++ quotes)%string [Block x].
Proof.
  intros H. unfold C. rewrite (runs_app quotes _ [] (Lines "" 0)) by reflexivity.
  rewrite (runs_app x _ _ _ quotes (runs_plain x "" H)). reflexivity.
Qed.
Lemma all_app p a b : all_chars p (a ++ b)%string = (all_chars p a && all_chars p b)%bool.
Proof. induction a as [|c a IH]; [reflexivity|]. cbn. rewrite IH. now rewrite andb_assoc. Qed.
Lemma all_spaces (p : ascii -> bool) k : p " "%char = true -> all_chars p (spaces k) = true.
Proof. intros H. induction k; cbn; [reflexivity|]. now rewrite H, IHk. Qed.
Lemma one_line_chars d : one_line d -> all_chars in_line d = true. Proof. destruct d; cbn; [easy|]. intros (A & _). exact A. Qed.
Lemma in_line_plain c : in_line c = true -> plain c = true.
Proof. unfold in_line, plain. destruct (line_end c), (is_quote c), (backslash c); easy. Qed.
Lemma c_spaces k : C (spaces k) [].
Proof. unfold C. induction k; [reflexivity|]. cbn. now rewrite IHk. Qed.
Lemma c_lines k j d : one_line d -> C (spaces j ++ quotes ++ (newline ++ spaces k ++ d ++ newline ++ spaces k) ++ quotes ++ newline)%string (tk_doc k (Some d)).
Proof.
  intros H. change (tk_doc k (Some d)) with ([] ++ tk_doc k (Some d)). apply c_app; [apply c_spaces|].
  assert (E : (quotes ++ (newline ++ spaces k ++ d ++ newline ++ spaces k) ++ quotes ++ newline
               = (quotes ++ (newline ++ spaces k ++ d ++ newline ++ spaces k) ++ quotes) ++ newline)%string) by (rewrite !str_app_assoc; reflexivity).
  rewrite E. rewrite <- (app_nil_r (tk_doc k (Some d))). apply c_app; [|reflexivity]. apply c_block.
  rewrite !all_app, !all_spaces by reflexivity. rewrite (all_chars_impl _ _ d in_line_plain (one_line_chars _ H)). reflexivity.
Qed.

(** plain_docs, the documentation of enums, and get_formatted_docs *)
Lemma c_plain_docs o : doc_ok o -> C (plain_docs o) (tk_doc 2 o).
Proof.
  destruct o as [d|]; [|reflexivity]. intros H. pose proof (c_lines 2 2 d H) as K. cbn [plain_docs]. repeat rewrite !str_app_assoc in K. exact K.
Qed.
Lemma c_enum_docs o : doc_ok o ->
  C (match o with Some d => quotes ++ newline ++ d ++ newline ++ quotes ++ newline | None => "" end)%string (tk_doc 0 o).
Proof.
  destruct o as [d|]; [|reflexivity]. intros H. pose proof (c_lines 0 0 d H) as K. cbn [spaces append] in K. repeat rewrite !str_app_assoc in K. exact K.
Qed.
Lemma without_same d : all_chars in_line d = true -> without_newlines d = d.
Proof.
  induction d as [|c d IH]; [reflexivity|]. cbn. intros H. apply andb_prop in H as [A B]. rewrite (IH B).
  destruct (Ascii.eqb c _) eqn:E; [|reflexivity]. apply Ascii.eqb_eq in E. subst c. discriminate A.
Qed.
Lemma next_line_all d : forall room, String.length d <= room -> next_line room d = (d, "").
Proof. induction d as [|c d IH]; intros room H; [destruct room; reflexivity|]. destruct room; cbn in H; [lia|]. cbn. rewrite IH by lia. reflexivity. Qed.
Lemma c_formatted k o : short_doc o -> C (get_formatted_docs o k) (tk_doc k o).
Proof.
  destruct o as [d|]; [|reflexivity]. intros [H L]. pose proof (c_lines k k d H) as K. unfold get_formatted_docs.
  rewrite (without_same d (one_line_chars _ H)).
  assert (B : broken_lines (String.length d) 80 d = [d]).
  { destruct d as [|c d]; [destruct H|]. cbn [String.length broken_lines]. rewrite next_line_all by exact L. destruct (String.length d); reflexivity. }
  rewrite B. cbn [map String.concat]. repeat rewrite !str_app_assoc in K. repeat rewrite !str_app_assoc. exact K.
Qed.

(** The value of a block *)
Lemma split_none s : all_chars in_line s = true -> split_lines s = [s].
Proof.
  induction s as [|c s IH]; [reflexivity|]. cbn. intros H. apply andb_prop in H as [A B]. rewrite (IH B).
  destruct (N.eqb (code c) 10) eqn:E; [|reflexivity]. unfold in_line, line_end in A. rewrite E in A. discriminate A.
Qed.
Lemma split_one s t : all_chars in_line s = true -> split_lines (s ++ newline ++ t)%string = s :: split_lines t.
Proof.
  induction s as [|c s IH]; [reflexivity|]. cbn [all_chars append split_lines]. intros H. apply andb_prop in H as [A B]. rewrite (IH B).
  destruct (N.eqb (code c) 10) eqn:E; [|reflexivity]. unfold in_line, line_end in A. rewrite E in A. discriminate A.
Qed.
Lemma indent_spaces k s : indent (spaces k ++ s)%string = k + indent s.
Proof. induction k; [reflexivity|]. cbn. now rewrite IHk. Qed.
Lemma len_spaces k s : String.length (spaces k ++ s)%string = k + String.length s.
Proof. induction k; [reflexivity|]. cbn. now rewrite IHk. Qed.
Lemma drop_spaces k s : drop k (spaces k ++ s)%string = s.
Proof. induction k; [destruct s; reflexivity|]. exact IHk. Qed.
Lemma block_one_line k d : one_line d -> block_value (newline ++ spaces k ++ d ++ newline ++ spaces k)%string = d.
Proof.
  intros H. pose proof (one_line_chars d H) as L. assert (I : indent d = 0 /\ d <> "") by (destruct d as [|c d]; [destruct H|]; destruct H as (_ & F & _); cbn; rewrite F; split; [reflexivity|discriminate]).
  unfold block_value. change (newline ++ spaces k ++ d ++ newline ++ spaces k)%string with ("" ++ newline ++ (spaces k ++ d ++ newline ++ spaces k))%string.
  rewrite split_one by reflexivity. rewrite <- (str_app_assoc (spaces k) d). rewrite split_one by (rewrite all_app, all_spaces, L by reflexivity; reflexivity).
  rewrite split_none by (now apply all_spaces).
  assert (B1 : blank (spaces k ++ d) = false) by (unfold blank; rewrite indent_spaces, len_spaces; destruct I as [-> N]; apply Nat.eqb_neq; destruct d; [congruence|cbn; lia]).
  assert (B2 : blank (spaces k) = true).
  { unfold blank. rewrite <- (str_app_nil_r (spaces k)), indent_spaces, len_spaces. apply Nat.eqb_refl. }
  cbn [min_indent fold_right]. rewrite B1, B2, indent_spaces. destruct I as [I N]. rewrite I, Nat.add_0_r. cbn [map]. rewrite drop_spaces.
  assert (Z : drop k (spaces k) = "") by (rewrite <- (str_app_nil_r (spaces k)); apply drop_spaces). rewrite Z.
  assert (B3 : blank d = false) by (unfold blank; rewrite I; destruct d; [congruence|reflexivity]).
  cbn. rewrite B3. cbn. rewrite B3. reflexivity.
Qed.
