(** Proofs for C48: the text of a planned selection. *)
From Coq Require Import String Ascii ZArith NArith Bool Lia List Permutation.
From Verif Require Import Base BaseFacts StringFacts JsonModel TypeModel MustacheModel MustacheSpec MustacheProofs HeadersModel UrlModel RequestModel RequestSpec
  RequestProofs GqlModel IrModel IrProofs BuilderModel UpstreamModel UpstreamSpec.
Import ListNotations.
Open Scope list_scope.
Open Scope string_scope.

(** * Braces *)
Fixpoint scan (o : bool) (s : string) : option bool :=
  match s with
  | EmptyString => Some o
  | String c t => if Ascii.eqb c "{" then if o then None else scan true t else scan false t
  end.
Definition calm (s : string) : Prop := scan false s = Some false.

Lemma scan_app a : forall o b, scan o (a ++ b) = match scan o a with Some o' => scan o' b | None => None end.
Proof.
  induction a as [|c a IH]; intros o b; cbn; [reflexivity|]. destruct (Ascii.eqb c "{"); [destruct o; [reflexivity|]|]; apply IH.
Qed.
Lemma calm_app a b : calm a -> calm b -> calm (a ++ b).
Proof. unfold calm. intros A B. now rewrite scan_app, A. Qed.

Lemma scan_none s : forall o, scan o s = None -> exists a b, (if o then "{" else "") ++ s = a ++ "{{" ++ b.
Proof.
  induction s as [|c s IH]; intros o H; [discriminate|]. cbn in H. destruct (Ascii.eqb_spec c "{") as [->|N].
  - destruct o; [now exists "", s|]. destruct (IH _ H) as (a & b & E). exists a, b. exact E.
  - destruct (IH _ H) as (a & b & E). cbn in E. destruct o; [exists ("{" ++ String c a), b|exists (String c a), b]; cbn; now rewrite E.
Qed.
Lemma scan_true s : forall o, scan o s = Some true -> s = "" /\ o = true \/ exists t, s = t ++ "{".
Proof.
  induction s as [|c s IH]; intros o H; cbn in H; [injection H as ->; now left|]. right.
  destruct (Ascii.eqb_spec c "{") as [->|N].
  - destruct o; [discriminate|]. destruct (IH _ H) as [[-> _]|(t & ->)]; [now exists ""|now exists (String "{" t)].
  - destruct (IH _ H) as [[_ X]|(t & ->)]; [discriminate|now exists (String c t)].
Qed.
Lemma scan_found a b : forall o, scan o (a ++ "{{" ++ b) = None.
Proof.
  induction a as [|c a IH]; intros o; cbn; [now destruct o|].
  destruct (Ascii.eqb c "{"); [destruct o; [reflexivity|]|]; apply IH.
Qed.
Lemma calm_of s : braceless s -> (forall t, s <> t ++ "{") -> calm s.
Proof.
  intros B N. unfold calm. destruct (scan false s) as [[]|] eqn:E; [|reflexivity|].
  - destruct (scan_true _ _ E) as [[_ X]|(t & ->)]; [discriminate|now destruct (N t)].
  - destruct (scan_none _ _ E) as (a & b & X). now destruct (B a b).
Qed.
Lemma braceless_of s : scan false s <> None -> braceless s.
Proof. intros H a b ->. apply H. apply scan_found. Qed.

Lemma scan_escape_char c : ordinary c = true -> forall o, scan o (escape_char c) = scan o (String c "").
Proof. destruct c as [[] [] [] [] [] [] [] []]; intros H o; cbn in H; try discriminate H; reflexivity || (destruct o; reflexivity). Qed.
Lemma scan_escape s : every ordinary s -> forall o, scan o (escape_default s) = scan o s.
Proof.
  unfold every. induction s as [|c s IH]; intros H o; [reflexivity|]. cbn [all_chars] in H. apply andb_true_iff in H as [H1 H2].
  cbn [escape_default]. rewrite scan_app, scan_escape_char by assumption. change (String c s) with (String c "" ++ s).
  rewrite scan_app. destruct (scan o (String c "")); auto.
Qed.
Lemma escape_app a b : escape_default (a ++ b) = escape_default a ++ escape_default b.
Proof. induction a as [|c a IH]; cbn; [reflexivity|]. now rewrite IH, str_app_assoc. Qed.

Lemma word_facts c : is_word c = true -> json_plain c = true /\ ordinary c = true /\ Ascii.eqb c "{" = false /\ escape_char c = String c "".
Proof. destruct c as [[] [] [] [] [] [] [] []]; intros H; cbn in H; try discriminate H; repeat split; reflexivity. Qed.
Lemma words_ordinary s : word_chars s -> every ordinary s.
Proof. induction 1 as [|c s W _ IH]; [reflexivity|]. unfold every in *. cbn. apply word_facts in W as (_ & -> & _). exact IH. Qed.
Lemma words_plain s : word_chars s -> every json_plain s.
Proof. induction 1 as [|c s W _ IH]; [reflexivity|]. unfold every in *. cbn. apply word_facts in W as (-> & _). exact IH. Qed.
Lemma words_calm s : word_chars s -> calm s.
Proof. induction 1 as [|c s W _ IH]; [reflexivity|]. unfold calm in *. cbn. apply word_facts in W as (_ & _ & -> & _). exact IH. Qed.
Lemma words_escape s : word_chars s -> escape_default s = s.
Proof. induction 1 as [|c s W _ IH]; [reflexivity|]. cbn. apply word_facts in W as (_ & _ & _ & ->). now rewrite IH. Qed.
Lemma name_words s : name s -> word_chars s.
Proof. intros [c t A W]. constructor; [now apply alpha_word|exact W]. Qed.

Lemma between_join sep l : between sep l = join sep l.
Proof.
  unfold join. induction l as [|a l IH]; [reflexivity|]. destruct l as [|b l]; [reflexivity|].
  change (between sep (a :: b :: l)) with (a ++ sep ++ between sep (b :: l)). rewrite IH. reflexivity.
Qed.

(** * Templates built of texts and variables *)
Section Built.
  Variable sub : string -> string.

  Inductive Built (R : string -> string -> Prop) : string -> string -> Prop :=
  | built_nil : Built R "" ""
  | built_lit t u t' u' : R t u -> Built R t' u' -> Built R (t ++ t') (u ++ u')
  | built_var x t' u' : name x -> every json_plain (sub x) -> Built R t' u' ->
      Built R (": {{" ++ x ++ "}}" ++ t') (": " ++ sub x ++ u').

  Lemma built_app R a b c d : Built R a b -> Built R c d -> Built R (a ++ c) (b ++ d).
  Proof.
    intros H K. induction H as [|t u t' u' L H IH|x t' u' N P H IH]; [exact K|..].
    - rewrite !str_app_assoc. now constructor.
    - rewrite !str_app_assoc. now constructor.
  Qed.
  Lemma built_one (R : string -> string -> Prop) t u : R t u -> Built R t u.
  Proof. intros H. rewrite <- (str_app_nil_r t), <- (str_app_nil_r u). constructor; [exact H|constructor]. Qed.
  Lemma built_join (R : string -> string -> Prop) sep l m : R sep sep -> Forall2 (Built R) l m -> Built R (join sep l) (between sep m).
  Proof.
    intros S1 F. change (between sep m) with (String.concat sep m). unfold join. induction F as [|a b l m A F IH]; [constructor|]. destruct F as [|a' b' l m A' F]; [exact A|].
    change (String.concat sep (a :: a' :: l)) with (a ++ sep ++ String.concat sep (a' :: l)).
    change (String.concat sep (b :: b' :: m)) with (b ++ sep ++ String.concat sep (b' :: m)).
    apply built_app; [exact A|]. apply built_app; [now apply built_one|exact IH].
  Qed.

  (** Before and after escaping. *)
  Definition raw (t u : string) : Prop := t = u /\ every ordinary t /\ calm t.
  Definition cooked (t u : string) : Prop := json_chars t u /\ calm t.

  Lemma raw_fit s : fit s -> raw s s.
  Proof. intros (O1 & B & N). repeat split; [assumption|now apply calm_of]. Qed.
  Lemma raw_words s : word_chars s -> raw s s.
  Proof. intros W. repeat split; [now apply words_ordinary|now apply words_calm]. Qed.
  Lemma cooked_words s : word_chars s -> cooked s s.
  Proof. intros W. split; [apply json_of_plain; now apply words_plain|now apply words_calm]. Qed.

  Lemma built_escape t u : Built raw t u -> Built cooked (escape_default t) u.
  Proof.
    induction 1 as [|t u t' u' (-> & O1 & C) H IH|x t' u' N P H IH]; [constructor|..].
    - rewrite escape_app. constructor; [|exact IH]. split; [now apply json_of_escape|]. unfold calm. now rewrite scan_escape.
    - rewrite !escape_app. rewrite (words_escape x) by now apply name_words. exact (built_var cooked x _ _ N P IH).
  Qed.

  (** Reading a template and filling it in. *)
  Lemma render_cons f g m : render f (g :: m) =
    match g with Literal t => t | Expression p => match f p with Some v => v | None => "" end end ++ render f m.
  Proof. unfold render. cbn [map]. now rewrite concat_nil_cons. Qed.

  Lemma not_quote a : a ++ " }" <> """".
  Proof. intros E. apply (f_equal String.length) in E. rewrite str_app_length in E. cbn in E. lia. Qed.

  Lemma built_read (f : list string -> option string) t u :
    (forall x, name x -> every json_plain (sub x) -> f [x] = Some (sub x) \/ f [x] = None /\ sub x = "") ->
    Built cooked t u -> forall a, calm a ->
    exists segs r, written segs (a ++ t ++ " }") /\ ~ In (Literal """") segs /\ render f segs = a ++ r /\ json_chars r (u ++ " }").
  Proof.
    intros F H. induction H as [|t u t' u' (J & C) H IH|x t' u' N P H IH]; intros a A.
    - exists [Literal (a ++ " }")], " }". refine (conj _ (conj _ (conj _ _))).
      + constructor; [intros E; apply str_app_eq_nil in E as [_ E]; discriminate E|]. apply braceless_of. rewrite scan_app, A. discriminate.
      + intros [[= E]|[]]. now apply not_quote in E.
      + rewrite render_cons. cbn. now rewrite str_app_nil_r.
      + now apply json_of_plain.
    - destruct (IH (a ++ t) (calm_app _ _ A C)) as (segs & r & W & Q & E & J'). exists segs, (t ++ r). refine (conj _ (conj _ (conj _ _))).
      + now rewrite str_app_assoc in *.
      + exact Q.
      + now rewrite E, str_app_assoc.
      + rewrite str_app_assoc. now apply json_app.
    - destruct (IH "" eq_refl) as (segs & r & W & Q & E & J'). exists (Literal (a ++ ": ") :: Expression [x] :: segs), (": " ++ sub x ++ r).
      refine (conj _ (conj _ (conj _ _))).
      + replace (a ++ (": {{" ++ x ++ "}}" ++ t') ++ " }") with ((a ++ ": ") ++ ("{{" ++ x ++ "}}") ++ "" ++ t' ++ " }").
        2:{ rewrite !str_app_assoc. reflexivity. }
        apply W_text_expr; [intros E'; apply str_app_eq_nil in E' as [_ E']; discriminate E'|..].
        * apply braceless_of. rewrite !scan_app, A. discriminate.
        * apply WE_plain. replace x with ("" ++ x ++ "") at 2 by (cbn; apply str_app_nil_r).
          constructor; [exact N|constructor|constructor].
        * exact W.
      + intros [[= E']|[E'|I]]; [|discriminate|now apply Q]. apply (f_equal String.length) in E'. rewrite str_app_length in E'. cbn in E'. lia.
      + rewrite !render_cons, E. cbn [String.append]. rewrite str_app_assoc. cbn [String.append].
        destruct (F x N P) as [-> | [-> Z]]; [reflexivity|]. now rewrite Z.
      + rewrite !str_app_assoc. apply json_app; [now apply json_of_plain|]. apply json_app; [now apply json_of_plain|exact J'].
  Qed.

  Lemma built_render (f : list string -> option string) t u :
    (forall x, name x -> every json_plain (sub x) -> f [x] = Some (sub x) \/ f [x] = None /\ sub x = "") ->
    Built cooked t u -> json_chars (render f (parse (t ++ " }"))) (u ++ " }").
  Proof.
    intros F H. destruct (built_read f t u F H "" eq_refl) as (segs & r & W & Q & E & J).
    cbn [String.append] in W, E. rewrite (parse_written _ _ W Q), E. exact J.
  Qed.
End Built.

(** * Values, arguments and directives *)
Lemma bfield_nest {IR} (P : bfield IR -> Prop) :
  (forall f, (forall g, In g (b_sel f) -> P g) -> P f) -> forall f, P f.
Proof.
  intros H. fix D 1. intros [i n o e t c s inc a fr ds en sc l]. apply H. cbn.
  induction l as [|x l IH]; intros g I; [destruct I|]. destruct I as [<-|I]; [apply D|exact (IH g I)].
Qed.

Section Texts.
  Variable number_text : number -> string.
  Variable quoted : string -> string.
  Notation display := (display number_text quoted).
  Notation written_value := (written_value number_text quoted).

  Lemma display_written v : display v = written_value v.
  Proof. reflexivity. Qed.
  Lemma const_constant v : const_value v = constant v.
  Proof. reflexivity. Qed.

  Lemma join_empty sep l : (forall x, In x l -> x <> "") -> join sep l = "" -> l = [].
  Proof.
    destruct l as [|a [|b l]]; intros H E; [reflexivity| |]; exfalso; cbn in E.
    - exact (H a (or_introl eq_refl) E).
    - apply str_app_eq_nil in E as [E _]. exact (H a (or_introl eq_refl) E).
  Qed.
  Lemma entry_nonempty (k v : string) : k ++ ": " ++ v <> "".
  Proof. intros E. apply str_app_eq_nil in E as [_ E]. discriminate E. Qed.

  Section Field.
    Context {O : Type}.
    Notation field := (bfield (ir (call O))).
    Variable vars : list (string * value).
    Variable interfaces : list string.
    Definition sub (x : string) : string :=
      match aget x vars with Some w => written_value (constant w) | None => "" end.
    Notation Built := (Built sub).

    Lemma sub_variable x : name x -> every json_plain (sub x) ->
      variable_text number_text quoted vars [x] = Some (sub x) \/ variable_text number_text quoted vars [x] = None /\ sub x = "".
    Proof.
      intros _ _. unfold variable_text, sub. destruct (aget x vars) as [w|]; cbn; [left|now right].
      now rewrite const_constant, display_written.
    Qed.

    Definition given (f : field) := s_given (step_of number_text quoted vars false f "").
    Definition marked (f : field) := s_marked (step_of number_text quoted vars false f "").

    Lemma given_texts f :
      flat_map (fun a => match a_value a with Some v => [a_name a ++ ": " ++ display v] | None => [] end) (b_args f)
      = map (fun a => fst a ++ ": " ++ snd a) (given f).
    Proof.
      unfold given. cbn. unfold present. induction (b_args f) as [|a l IH]; [reflexivity|]. cbn [map flat_map fst snd].
      destruct (a_value a) as [v|]; cbn; rewrite IH; [|reflexivity]. now rewrite display_written.
    Qed.
    Lemma given_in f k t : In (k, t) (given f) -> exists a v, In a (b_args f) /\ a_value a = Some v /\ k = a_name a /\ t = written_value v.
    Proof.
      unfold given. cbn. intros I. apply in_flat_map in I as ([k' o] & I & J). apply in_map_iff in I as (a & [= <- <-] & I). cbn in J.
      destruct (a_value a) as [v|] eqn:E; [|destruct J]. destruct J as [[= <- <-]|[]]. now exists a, v.
    Qed.

    Lemma built_arguments f :
      (forall a v, In a (b_args f) -> a_value a = Some v -> word_chars (a_name a) /\ tame_argument number_text quoted v) ->
      Built cooked (field_arguments number_text quoted escape_default f) (args_text "," (given f)).
    Proof.
      intros H. unfold field_arguments. rewrite given_texts.
      destruct (String.eqb_spec (join "," (map (fun a => fst a ++ ": " ++ snd a) (given f))) "") as [E|N].
      - apply join_empty in E; [|intros x I; apply in_map_iff in I as (a & <- & _); apply entry_nonempty].
        destruct (given f); [constructor|discriminate].
      - assert (X : args_text "," (given f) = "(" ++ between "," (map (fun a => fst a ++ ": " ++ snd a) (given f)) ++ ")")
          by (destruct (given f); [now destruct N|reflexivity]).
        rewrite X. apply built_app; [apply built_one; split; [now apply json_of_plain|reflexivity]|].
        apply built_app; [|apply built_one; split; [now apply json_of_plain|reflexivity]].
        apply built_escape. apply built_join; [repeat split|].
        assert (G : forall k t, In (k, t) (given f) -> raw k k /\ raw t t).
        { intros k t I. apply given_in in I as (a & v & I & E & -> & ->). destruct (H a v I E) as [W (_ & F & _)].
          split; [now apply raw_words|now apply raw_fit]. }
        clear -G. induction (given f) as [|[k t] l IH]; [constructor|]. cbn [map]. constructor; [|apply IH; intros; apply G; now right].
        destruct (G k t (or_introl eq_refl)) as [A B]. cbn [fst snd]. apply built_app; [now apply built_one|].
        apply built_app; [apply built_one; repeat split|now apply built_one].
    Qed.

    Lemma mustache_of_variable x : to_mustache (display (QVar x)) = "{{" ++ x ++ "}}".
    Proof. reflexivity. Qed.
    Lemma mustache_of_text s : (forall t, s <> "$" ++ t) -> to_mustache s = s.
    Proof.
      intros N. destruct s as [|c s]; [reflexivity|]. destruct (Ascii.eqb_spec c "$") as [->|M]; [now destruct (N s)|].
      destruct c as [[] [] [] [] [] [] [] []]; try reflexivity. now destruct M.
    Qed.

    Definition marks (args : list (string * qvalue)) : list (string * string) :=
      present (map (fun a => (fst a, stands_for number_text quoted vars (snd a))) args).
    Lemma built_marks d : (forall k v, In (k, v) (snd d) -> v <> QNull -> word_chars k /\ tame_mark number_text quoted vars v) ->
      Forall2 (Built raw) (directive_args number_text quoted d) (map (fun a => fst a ++ ": " ++ snd a) (marks (snd d))).
    Proof.
      destruct d as [dn args]. cbn [snd]. unfold directive_args, marks, present. cbn [snd].
      induction args as [|[k v] args IH]; intros H; [constructor|]. cbn [map flat_map fst snd].
      specialize (IH (fun k' v' I => H k' v' (or_intror I))). specialize (H k v (or_introl eq_refl)).
      assert (X : v = QNull \/ exists t, stands_for number_text quoted vars v = Some t /\ Built raw (k ++ ": " ++ to_mustache (display v)) (k ++ ": " ++ t)).
      { destruct (match v with QNull => true | _ => false end) eqn:Ev; [left; now destruct v|right].
        destruct H as [W T]; [intros ->; discriminate|]. destruct T as [x w N G P|v (C & F & D)].
        - exists (sub x). split; [unfold sub; cbn; now rewrite G|]. rewrite mustache_of_variable.
          apply built_app; [apply built_one; now apply raw_words|].
          replace (": " ++ "{{" ++ x ++ "}}") with (": {{" ++ x ++ "}}" ++ "") by reflexivity.
          replace (": " ++ sub x) with (": " ++ sub x ++ "") by now rewrite str_app_nil_r.
          apply built_var; [exact N| |constructor]. unfold sub. now rewrite G.
        - exists (written_value v). split; [destruct C; try reflexivity; discriminate|].
          rewrite display_written, mustache_of_text by exact D.
          apply built_app; [apply built_one; now apply raw_words|].
          apply built_app; [apply built_one; repeat split|apply built_one; now apply raw_fit]. }
      destruct X as [->|(t & E & B)]; [exact IH|]. rewrite E.
      cbn [app map fst snd]. destruct v; try discriminate E; (constructor; [exact B|exact IH]).
    Qed.

    Lemma Forall2_empty {A B} (R : A -> B -> Prop) l m : Forall2 R l m -> (l = [] <-> m = []).
    Proof. intros []; split; congruence. Qed.

    Lemma directive_args_nonempty d x : In x (directive_args number_text quoted d) -> x <> "".
    Proof.
      unfold directive_args. intros I. apply in_flat_map in I as ([k v] & _ & I). cbn in I.
      destruct v; try destruct I as [<-|[]]; try destruct I; try apply entry_nonempty.
    Qed.

    Lemma built_directive d : word_chars (fst d) ->
      (forall k v, In (k, v) (snd d) -> v <> QNull -> word_chars k /\ tame_mark number_text quoted vars v) ->
      Built raw (print_directive number_text quoted d) ("@" ++ fst d ++ args_text ", " (marks (snd d))).
    Proof.
      intros W H. pose proof (built_marks d H) as M. unfold print_directive.
      destruct (String.eqb_spec (join ", " (directive_args number_text quoted d)) "") as [E|N].
      - apply join_empty in E; [|intros x; apply directive_args_nonempty]. apply Forall2_empty in M. apply M in E. apply map_eq_nil in E.
        rewrite E. cbn [args_text]. rewrite str_app_nil_r. apply built_app; [apply built_one; repeat split|apply built_one; now apply raw_words].
      - apply built_app; [apply built_one; repeat split|]. apply built_app; [apply built_one; now apply raw_words|].
        assert (X : args_text ", " (marks (snd d)) = "(" ++ between ", " (map (fun a => fst a ++ ": " ++ snd a) (marks (snd d))) ++ ")").
        { destruct (marks (snd d)); [|reflexivity]. inversion M as [E|]. now rewrite <- E in N. }
        rewrite X. apply built_app; [apply built_one; repeat split|]. apply built_app; [|apply built_one; repeat split].
        apply built_join; [repeat split|exact M].
    Qed.

    Lemma built_directives f :
      (forall d args k v, In (d, args) (b_directives f) -> word_chars d /\
         (In (k, v) args -> v <> QNull -> word_chars k /\ tame_mark number_text quoted vars v)) ->
      Built cooked (field_directives number_text quoted escape_default f)
        (match marked f with [] => "" | _ => " " ++ between " " (map (fun d => "@" ++ fst d ++ args_text ", " (snd d)) (marked f)) end).
    Proof.
      intros H. unfold field_directives, print_directives.
      assert (M : Forall2 (Built raw) (map (print_directive number_text quoted) (b_directives f))
                    (map (fun d => "@" ++ fst d ++ args_text ", " (snd d)) (marked f))).
      { unfold marked. cbn. induction (b_directives f) as [|[d args] l IH]; [constructor|]. cbn [map]. constructor.
        - apply (built_directive (d, args)); cbn [fst snd].
          + exact (proj1 (H d args "" QNull (or_introl eq_refl))).
          + intros k v. exact (proj2 (H d args k v (or_introl eq_refl))).
        - apply IH. intros d' args' k v I. exact (H d' args' k v (or_intror I)). }
      destruct (String.eqb_spec (join " " (map (print_directive number_text quoted) (b_directives f))) "") as [E|N].
      - apply join_empty in E.
        + apply Forall2_empty in M. apply M in E. apply map_eq_nil in E. rewrite E. constructor.
        + intros x I. apply in_map_iff in I as (d & <- & _). unfold print_directive. destruct (String.eqb _ _); discriminate.
      - assert (X : match marked f with [] => "" | _ => " " ++ between " " (map (fun d => "@" ++ fst d ++ args_text ", " (snd d)) (marked f)) end
                    = " " ++ between " " (map (fun d => "@" ++ fst d ++ args_text ", " (snd d)) (marked f))).
        { destruct (marked f); [|reflexivity]. inversion M as [E|]. now rewrite <- E in N. }
        rewrite X. apply built_app; [apply built_one; split; [now apply json_of_plain|reflexivity]|].
        apply built_escape. apply built_join; [repeat split|exact M].
    Qed.
  End Field.
End Texts.

(** * Selections *)
Section Groups.
  Context {A : Type}.
  Fixpoint gpush (m : list (string * list A)) (k : string) (v : A) : list (string * list A) :=
    match m with
    | [] => [(k, [v])]
    | (k', l) :: t => if String.eqb k k' then (k', (l ++ [v])%list) :: t else (k', l) :: gpush t k v
    end.
  Definition gmem (m : list (string * list A)) (k : string) (x : A) : Prop := exists l, In (k, l) m /\ In x l.
  Lemma gmem_push m k v k' x : gmem (gpush m k v) k' x <-> gmem m k' x \/ k' = k /\ x = v.
  Proof.
    unfold gmem. induction m as [|[j l] m IH]; cbn.
    - split.
      + intros (l & [[= <- <-]|[]] & [->|[]]). now right.
      + intros [(l & [] & _)|[-> ->]]. exists [v]. cbn. auto.
    - destruct (String.eqb_spec k j) as [->|N].
      + split.
        * intros (l' & [[= <- <-]|I] & J); [apply in_app_iff in J as [J|[->|[]]]; [left|right]; eauto|left; eauto].
        * intros [(l' & [[= <- <-]|I] & J)|[-> ->]].
          -- exists (l ++ [v])%list. split; [now left|]. apply in_app_iff. now left.
          -- exists l'. split; [now right|exact J].
          -- exists (l ++ [v])%list. split; [now left|]. apply in_app_iff. right. now left.
      + split.
        * intros (l' & [[= <- <-]|I] & J); [left; eauto|].
          destruct (proj1 IH (ex_intro _ l' (conj I J))) as [(l2 & I2 & J2)|E]; [left; eauto|now right].
        * intros [(l' & [[= <- <-]|I] & J)|E].
          -- exists l. split; [now left|exact J].
          -- destruct (proj2 IH (or_introl (ex_intro _ l' (conj I J)))) as (l2 & I2 & J2). exists l2. split; [now right|exact J2].
          -- destruct (proj2 IH (or_intror E)) as (l2 & I2 & J2). exists l2. split; [now right|exact J2].
  Qed.
  Definition filled (m : list (string * list A)) : Prop := forall k l, In (k, l) m -> l <> [].
  Lemma filled_push m k v : filled m -> filled (gpush m k v).
  Proof.
    unfold filled. induction m as [|[j l] m IH]; cbn; intros H k' l'.
    - intros [[= <- <-]|[]]. discriminate.
    - destruct (String.eqb k j); intros [[= <- <-]|I].
      + intros E. now apply app_eq_nil in E as [_ E].
      + exact (H k' l' (or_intror I)).
      + exact (H j l (or_introl eq_refl)).
      + refine (IH _ k' l' I). intros k2 l2 I2. exact (H k2 l2 (or_intror I2)).
  Qed.
End Groups.
Lemma push_gpush m k v : push_group m k v = gpush m k v.
Proof.
  unfold push_group. induction m as [|[j l] m IH]; cbn; [reflexivity|]. destruct (String.eqb k j); [reflexivity|].
  rewrite <- IH. destruct (aget k m); reflexivity.
Qed.
Lemma gpush_map {A B} (h : A -> B) m k v :
  gpush (map (fun g => (fst g, map h (snd g))) m) k (h v) = map (fun g => (fst g, map h (snd g))) (gpush m k v).
Proof.
  induction m as [|[j l] m IH]; cbn; [reflexivity|]. destruct (String.eqb k j); cbn; [now rewrite map_app|now rewrite IH].
Qed.

Section Selections.
  Variable number_text : number -> string.
  Variable quoted : string -> string.
  Context {O : Type}.
  Notation field := (bfield (ir (call O))).
  Variable vars : list (string * value).
  Variable interfaces : list string.
  Variable shuffle : list field -> list (string * list string) -> list (string * list string).
  Hypothesis Sh : forall l m, Permutation (shuffle l m) m.
  Notation Built := (Built (sub number_text quoted vars)).
  Notation Wants := (Wants number_text quoted interfaces vars).
  Notation tame := (tame number_text quoted vars).
  Notation given := (given number_text quoted vars).
  Notation marked := (marked number_text quoted vars).
  Notation field_text := (field_text number_text quoted escape_default interfaces shuffle).
  Notation set_text := (set_text shuffle).
  Notation of_interface := (of_interface interfaces).

  Lemma served_name (f : field) n : served f n -> upstream_name f = n /\ asked_upstream f = true.
  Proof. unfold upstream_name, asked_upstream. intros [E|m r E]; rewrite E; auto. Qed.
  Lemma resolved_not_asked (f : field) : resolved_here f -> asked_upstream f = false.
  Proof. unfold asked_upstream. intros [c E|d E]; now rewrite E. Qed.
  Lemma tame_asked (f : field) : tame f -> asked_upstream f = true -> exists n, served f n.
  Proof. intros [g R|g n S1 _ _ _ _ _] A; [now rewrite resolved_not_asked in A|eauto]. Qed.
  Lemma interface_bool (f : field) : of_interface f = true <-> interface_typed interfaces f.
  Proof. unfold interface_typed. apply smem_In. Qed.

  Definition entry : Type := (field * string) * ask.
  Definition fair (l : list field) (e : entry) : Prop :=
    let '((g, t), a) := e in
    exists n sub, In g l /\ served g n /\ tame g /\ Built cooked t (ask_text a) /\ a = AskField n (given g) (marked g) sub /\
                  forall p, Asked sub p <-> Wants (of_interface g) (b_sel g) p.

  Definition groups_step (iface : bool) (m : list (string * list (string * ask))) (e : entry) :=
    match b_fragment (fst (fst e)) with
    | Some k => if iface then gpush m k (snd (fst e), snd e) else m
    | None => m
    end.
  Lemma fragments_groups (iface : bool) (L : list entry) : forall m,
    fold_left (fun m (p : field * string) => match b_fragment (fst p) with
                          | Some k => if iface then push_group m k (snd p) else m
                          | None => m
                          end) (map fst L) (map (fun g : string * list (string * ask) => (fst g, map fst (snd g))) m)
    = map (fun g => (fst g, map fst (snd g))) (fold_left (groups_step iface) L m).
  Proof.
    induction L as [|[[g t] a] L IH]; intros m; [reflexivity|]. cbn [map fold_left fst snd]. rewrite <- IH. f_equal.
    unfold groups_step. cbn [fst snd]. destruct (b_fragment g) as [k|]; [|reflexivity]. destruct iface; [|reflexivity].
    rewrite push_gpush. exact (gpush_map fst m k (t, a)).
  Qed.
  Lemma groups_mem iface (L : list entry) k x : forall m,
    gmem (fold_left (groups_step iface) L m) k x <->
    gmem m k x \/ exists g, In ((g, fst x), snd x) L /\ b_fragment g = Some k /\ iface = true.
  Proof.
    destruct x as [xt xa]. cbn [fst snd]. induction L as [|[[g t] a] L IH]; intros m; cbn [fold_left].
    - split; [now left|]. intros [H|(g & [] & _)]; exact H.
    - rewrite IH. unfold groups_step at 1. cbn [fst snd]. destruct (b_fragment g) as [j|] eqn:E; [destruct iface|].
      + rewrite gmem_push. split.
        * intros [[H|[-> [= -> ->]]]|(g' & I & F)]; [now left|right; exists g; cbn; auto|right; exists g'; cbn; tauto].
        * intros [H|(g' & [[= <- <- <-]|I] & F & Ei)]; [now left; left| |right; exists g'; auto].
          left. right. split; [congruence|reflexivity].
      + split; intros [H|(g' & I & F)]; [now left|destruct F as [_ F]; discriminate|now left|destruct F as [_ F]; discriminate].
      + split.
        * intros [H|(g' & I & F)]; [now left|right; exists g'; cbn; tauto].
        * intros [H|(g' & [[= <- <- <-]|I] & F & Ei)]; [now left|congruence|right; exists g'; auto].
  Qed.
  Lemma groups_filled iface (L : list entry) : forall m, filled m -> filled (fold_left (groups_step iface) L m).
  Proof.
    induction L as [|[[g t] a] L IH]; intros m F; [exact F|]. apply IH. unfold groups_step. cbn. destruct (b_fragment g); [|exact F].
    destruct iface; [now apply filled_push|exact F].
  Qed.

  Definition direct (iface : bool) (L : list entry) : list entry :=
    filter (fun e => match b_fragment (fst (fst e)) with Some _ => negb iface | None => true end) L.
  Lemma direct_texts_eq iface (L : list entry) : direct_texts iface (map fst L) = map (fun e => snd (fst e)) (direct iface L).
  Proof.
    unfold direct_texts, direct. induction L as [|[[g t] a] L IH]; [reflexivity|]. cbn [map flat_map filter fst snd].
    rewrite IH. destruct (b_fragment g); [destruct iface|]; reflexivity.
  Qed.

  Lemma wants_inv (iface : bool) (l : list field) p : Wants iface l p ->
    (exists (f : field) n, In f l /\ served f n /\ p = [step_of number_text quoted vars iface f n]) \/
    (exists (f : field) n b q, In f l /\ served f n /\ (b = true <-> interface_typed interfaces f) /\ Wants b (b_sel f) q /\
       p = step_of number_text quoted vars iface f n :: q) \/
    (iface = true /\ (exists (f : field) n, In f l /\ served f n) /\
       (forall g : field, In g l -> served g "__typename" -> b_fragment g <> None) /\ p = [typename_step]).
  Proof.
    intros [b l' f n I S1|b l' f n b' q I S1 Hb W|l' f n I S1 N].
    - left. exists f, n. auto.
    - right. left. exists f, n, b', q. auto.
    - right. right. split; [reflexivity|]. split; [exists f, n; auto|]. split; [exact N|reflexivity].
  Qed.

  Lemma set_built iface l (L : list entry) :
    map fst L = filter (fun p => asked_upstream (fst p)) (map (fun g => (g, field_text g)) l) ->
    Forall (fair l) L ->
    match set_text iface (map (fun g => (g, field_text g)) l) with
    | None => forall p, ~ Wants iface l p
    | Some t => exists asks t', t = t' ++ " }" /\ asks <> [] /\ Built cooked t' ("{ " ++ between " " (map ask_text asks)) /\
                  forall p, Asked asks p <-> Wants iface l p
    end.
  Proof.
    intros EL F. rewrite Forall_forall in F.
    assert (All : forall g n, In g l -> served g n -> exists a, In ((g, field_text g), a) L).
    { intros g n I S1. assert (J : In (g, field_text g) (map fst L)).
      { rewrite EL. apply filter_In. split; [apply in_map_iff; eauto|]. cbn. now apply served_name in S1 as [_ ->]. }
      apply in_map_iff in J as ([gt a] & E & J). cbn in E. subst gt. eauto. }
    unfold UpstreamModel.set_text. cbv zeta. rewrite <- EL.
    destruct L as [|e0 L0] eqn:EL0.
    { cbn [map]. intros p W. destruct W as [b l f n I S1|b l f n b' p I S1 _ _|l f n I S1 _];
        destruct (All f n I S1) as [a J]; exact J. }
    assert (NE : L <> []) by (rewrite EL0; discriminate). rewrite <- EL0 in *.
    assert (X : forall A (y z : A), match map fst L with [] => y | _ => z end = z) by (intros; rewrite EL0; reflexivity).
    rewrite X. clear X e0 L0 EL0.
    rewrite direct_texts_eq. unfold fragment_texts. rewrite (fragments_groups iface L [] : fold_left _ (map fst L) [] = _). set (G := fold_left (groups_step iface) L []).
    set (tn := if (iface && negb (typename_requested (map fst L)))%bool then ["__typename"] else []).
    pose proof (Sh (map fst (map (fun g => (g, field_text g)) l)) (map (fun g => (fst g, map fst (snd g))) G)) as P.
    apply Permutation_map_inv in P as (G' & EG & P). rewrite EG.
    set (tna := if (iface && negb (typename_requested (map fst L)))%bool then [AskField "__typename" [] [] []] else []).
    set (asks := (map snd (direct iface L) ++ tna ++ map (fun g => AskOn (fst g) (map snd (snd g))) G')%list).
    assert (GM : forall k x, gmem G' k x <-> exists g, In ((g, fst x), snd x) L /\ b_fragment g = Some k /\ iface = true).
    { intros k x. assert (Y : gmem G' k x <-> gmem G k x).
      { unfold gmem. split; intros (r & I & J); exists r; (split; [|exact J]); [exact (Permutation_in _ (Permutation_sym P) I)|exact (Permutation_in _ P I)]. }
      rewrite Y. unfold G. rewrite groups_mem. split; [intros [(r & [] & _)|H]; exact H|now right]. }
    assert (GF : filled G').
    { intros k r I. assert (J : In (k, r) G) by exact (Permutation_in _ (Permutation_sym P) I).
      revert J. apply groups_filled. intros k' r' []. }
    exists asks. eexists ("{ " ++ _). split; [symmetry; apply str_app_assoc|]. split; [|split].
    - destruct L as [|[[g t] a] L0]; [congruence|]. unfold asks. intros E.
      apply app_eq_nil in E as [E1 E2]. apply app_eq_nil in E2 as [_ E3]. apply map_eq_nil in E1, E3.
      destruct (b_fragment g) as [k|] eqn:Eb; [destruct iface eqn:Ei|].
      + assert (H : gmem G' k (t, a)) by (apply GM; exists g; cbn; auto). rewrite E3 in H. destruct H as (r & [] & _).
      + unfold direct in E1. cbn in E1. rewrite Eb in E1. discriminate.
      + unfold direct in E1. cbn in E1. rewrite Eb in E1. discriminate.
    - apply built_app; [apply built_one; split; [now apply json_of_plain|reflexivity]|].
      apply built_join; [split; [now apply json_of_plain|reflexivity]|]. unfold asks. rewrite !map_app.
      apply Forall2_app; [|apply Forall2_app].
      + assert (Y : forall e, In e (direct iface L) -> Built cooked (snd (fst e)) (ask_text (snd e))).
        { intros [[g t] a] I. apply filter_In in I as [I _]. apply F in I as (n & sb & _ & _ & _ & B & _). exact B. }
        clear -Y. induction (direct iface L) as [|e D IH]; [constructor|]. cbn. constructor; [apply Y; now left|]. apply IH. intros; apply Y; now right.
      + unfold tn, tna. destruct (_ && _)%bool; constructor; [|constructor]. apply built_one. split; [now apply json_of_plain|reflexivity].
      + assert (Y : forall k r x, In (k, r) G' -> In x r -> word_chars k /\ Built cooked (fst x) (ask_text (snd x))).
        { intros k r x I J. destruct (proj1 (GM k x) (ex_intro _ r (conj I J))) as (g & K & Fr & Ei). apply F in K as (n & sb & _ & S1 & T & B & _).
          split; [|exact B]. destruct T as [g R|g m _ _ W _ _ _]; [|now apply W].
          apply served_name in S1 as [_ S1]. apply resolved_not_asked in R. congruence. }
        clear -Y GF. induction G' as [|[k r] G IH]; [constructor|]. cbn [map fst snd]. constructor.
        * cbn [ask_text]. assert (N : r <> []) by (apply (GF k); now left).
          assert (W : word_chars k) by (destruct r as [|x r]; [congruence|]; apply (Y k (x :: r) x); now left).
          apply built_app; [apply built_one; split; [now apply json_of_plain|reflexivity]|].
          apply built_app; [apply built_one; now apply cooked_words|].
          apply built_app; [apply built_one; split; [now apply json_of_plain|reflexivity]|].
          apply built_app; [|apply built_one; split; [now apply json_of_plain|reflexivity]].
          apply built_join; [split; [now apply json_of_plain|reflexivity]|].
          assert (Z : forall x, In x r -> Built cooked (fst x) (ask_text (snd x))) by (intros x I; apply (Y k r x); [now left|exact I]).
          clear -Z. induction r as [|x r IH]; [constructor|]. cbn. constructor; [apply Z; now left|]. apply IH. intros; apply Z; now right.
        * apply IH; [intros k' r' I; apply (GF k'); now right|]. intros k' r' x I. apply Y. now right.
    - intros p. unfold asks. split.
      + intros A. assert (Q : forall n args ds sb, In (AskField n args ds sb) asks ->
            (exists g t, In ((g, t), AskField n args ds sb) L /\ (iface = true -> b_fragment g = None)) \/
            (AskField n args ds sb = AskField "__typename" [] [] [] /\ iface = true /\ typename_requested (map fst L) = false)).
        { intros n args ds sb I. unfold asks in I. apply in_app_iff in I as [I|I]; [|apply in_app_iff in I as [I|I]].
          - left. apply in_map_iff in I as ([[g t] a] & E & I). cbn in E. subst a. apply filter_In in I as [I J]. cbn in J.
            exists g, t. split; [exact I|]. intros ->. destruct (b_fragment g); [discriminate|reflexivity].
          - right. unfold tna in I. destruct iface; [|destruct I]. destruct (typename_requested (map fst L)); cbn in I; [destruct I|].
            destruct I as [<-|[]]. auto.
          - apply in_map_iff in I as (g & E & _). discriminate. }
        assert (R : forall T sb, In (AskOn T sb) asks -> exists r, sb = map snd r /\ In (T, r) G').
        { intros T sb I. unfold asks in I. apply in_app_iff in I as [I|I]; [|apply in_app_iff in I as [I|I]].
          - apply in_map_iff in I as ([[g t] a] & E & I). cbn in E. subst a. apply filter_In in I as [I _]. apply F in I as (n & sb' & _ & _ & _ & _ & E & _). discriminate.
          - unfold tna in I. destruct (_ && _)%bool; [|destruct I]. destruct I as [E|[]]. discriminate.
          - apply in_map_iff in I as ([k r] & E & I). cbn in E. injection E as <- <-. eauto. }
        fold asks in A. revert A. generalize (eq_refl asks). generalize asks at 1 3. intros asks' Ea A.
        destruct A as [as1 n args ds sb I|as1 n args ds sb p I A|as1 T sb n args ds p I A]; subst as1.
        * apply Q in I as [(g & t & I & N)|(E & -> & Ty)].
          -- apply F in I as (m & sb' & J & S1 & _ & _ & E & _). injection E as -> -> -> ->.
             replace {| s_on := None; s_called := m; s_given := given g; s_marked := marked g |} with (step_of number_text quoted vars iface g m).
             2:{ unfold step_of. f_equal. destruct iface; [now apply N|reflexivity]. }
             now apply wants_field.
          -- injection E as -> -> -> ->. destruct L as [|[[g t] a] L0]; [congruence|].
             destruct (F ((g, t), a) (or_introl eq_refl)) as (m & sb' & J & S1 & _). apply (wants_typename _ _ _ _ _ g m); [exact J|exact S1|].
             intros g' J' S' Fr. destruct (All g' _ J' S') as [a' K]. apply not_true_iff_false in Ty. apply Ty.
             unfold typename_requested. apply existsb_exists. exists (g', field_text g'). split; [apply in_map_iff; eexists; split; [|exact K]; reflexivity|].
             cbn [fst]. rewrite Fr. apply served_name in S' as [-> _]. reflexivity.
        * apply Q in I as [(g & t & I & N)|(E & -> & Ty)].
          -- apply F in I as (m & sb' & J & S1 & _ & _ & E & H). injection E as -> -> -> ->. apply H in A.
             replace {| s_on := None; s_called := m; s_given := given g; s_marked := marked g |} with (step_of number_text quoted vars iface g m).
             2:{ unfold step_of. f_equal. destruct iface; [now apply N|reflexivity]. }
             apply (wants_below _ _ _ _ _ _ g m (of_interface g)); [exact J|exact S1|apply interface_bool|exact A].
          -- injection E as -> -> -> ->. exfalso. clear -A. inversion A as [? ? ? ? ? I|? ? ? ? ? ? I|? ? ? ? ? ? ? I]; subst; destruct I.
        * apply R in I as (r & -> & I).
          assert (K : forall m args' ds' sb', In (AskField m args' ds' sb') (map snd r) -> exists g t, In ((g, t), AskField m args' ds' sb') L /\ b_fragment g = Some T /\ iface = true).
          { intros m args' ds' sb' J. apply in_map_iff in J as ([t a] & E & J). cbn in E. subst a.
            destruct (proj1 (GM T (t, AskField m args' ds' sb')) (ex_intro _ r (conj I J))) as (g & K & Fr & Ei). exists g, t. auto. }
          assert (K' : forall T' sb', ~ In (AskOn T' sb') (map snd r)).
          { intros T' sb' J. apply in_map_iff in J as ([t a] & E & J). cbn in E. subst a.
            destruct (proj1 (GM T (t, AskOn T' sb')) (ex_intro _ r (conj I J))) as (g & K2 & _). apply F in K2 as (? & ? & _ & _ & _ & _ & E & _). discriminate. }
          remember ({| s_on := None; s_called := n; s_given := args; s_marked := ds |} :: p) as q eqn:Eq.
          remember (map snd r) as as2 eqn:Er.
          destruct A as [as2 n' args' ds' sb J|as2 n' args' ds' sb p' J A|as2 T' sb n' args' ds' p' J A].
          -- injection Eq as -> -> -> <-. apply K in J as (g & t & J & Fr & ->). apply F in J as (m & sb' & J & S1 & _ & _ & E & _).
             injection E as -> -> -> ->. rewrite <- Fr. exact (wants_field _ _ _ _ true l g m J S1).
          -- injection Eq as -> -> -> ->. apply K in J as (g & t & J & Fr & ->). apply F in J as (m & sb' & J & S1 & _ & _ & E & H).
             injection E as -> -> -> ->. apply H in A. rewrite <- Fr.
             exact (wants_below _ _ _ _ true l g m (of_interface g) p J S1 (interface_bool g) A).
          -- now apply K' in J.
      + intros W.
        assert (Put : forall g n, In g l -> served g n -> exists sb,
                  (forall q, Asked sb q <-> Wants (of_interface g) (b_sel g) q) /\
                  (if match b_fragment g with Some _ => negb iface | None => true end
                   then In (AskField n (given g) (marked g) sb) asks
                   else exists T r, b_fragment g = Some T /\ iface = true /\ In (AskOn T r) asks /\ In (AskField n (given g) (marked g) sb) r)).
        { intros g n I S1. destruct (All g n I S1) as [a J]. pose proof (F _ J) as (m & sb & _ & S2 & _ & _ & E & H).
          apply served_name in S1 as [S1 _]. apply served_name in S2 as [S2 _]. rewrite S1 in S2. subst m a. exists sb. split; [exact H|].
          destruct (match b_fragment g with Some _ => negb iface | None => true end) eqn:Eb.
          - unfold asks. apply in_app_iff. left. apply in_map_iff. eexists. split; [|apply filter_In; split; [exact J|exact Eb]]. reflexivity.
          - destruct (b_fragment g) as [T|] eqn:Ef; [|discriminate]. destruct iface eqn:Ei; [|discriminate].
            destruct (proj2 (GM T (field_text g, AskField n (given g) (marked g) sb))) as (r & I1 & I2); [exists g; cbn; auto|].
            exists T, (map snd r). repeat split.
            + unfold asks. apply in_app_iff. right. apply in_app_iff. right. apply in_map_iff. exists (T, r). auto.
            + apply in_map_iff. eexists. split; [|exact I2]. reflexivity. }
        fold asks.
        assert (On : forall (g : field) n sb, (if match b_fragment g with Some _ => negb iface | None => true end
                   then In (AskField n (given g) (marked g) sb) asks
                   else exists T r, b_fragment g = Some T /\ iface = true /\ In (AskOn T r) asks /\ In (AskField n (given g) (marked g) sb) r) ->
                   Asked asks [step_of number_text quoted vars iface g n] /\
                   forall q, Asked sb q -> Asked asks (step_of number_text quoted vars iface g n :: q)).
        { intros g n sb H. change (step_of number_text quoted vars iface g n) with
            {| s_on := if iface then b_fragment g else None; s_called := n; s_given := given g; s_marked := marked g |}.
          destruct (b_fragment g) as [T|]; [destruct iface|].
          - destruct H as (T' & r & [= <-] & _ & I & J). split; [apply (asked_on _ T r); [exact I|]; now apply (asked_field _ _ _ _ sb)|].
            intros q A. apply (asked_on _ T r); [exact I|]. now apply (asked_below _ _ _ _ sb).
          - split; [now apply (asked_field _ _ _ _ sb)|]. intros q A. now apply (asked_below _ _ _ _ sb).
          - replace (if iface then None else None) with (@None string) by now destruct iface.
            split; [now apply (asked_field _ _ _ _ sb)|]. intros q A. now apply (asked_below _ _ _ _ sb). }
        apply wants_inv in W as [(f & n & I & S1 & ->)|[(f & n & b' & q & I & S1 & Hb & W & ->)|(Ei & _ & NT & ->)]].
        * destruct (Put f n I S1) as (sb & _ & H). exact (proj1 (On f n sb H)).
        * destruct (Put f n I S1) as (sb & HA & H). apply (On f n sb H). apply HA.
          replace (of_interface f) with b'; [exact W|]. apply eq_true_iff_eq. rewrite interface_bool. exact Hb.
        * apply (asked_field _ "__typename" [] [] []). unfold asks. apply in_app_iff. right. apply in_app_iff. left.
          unfold tna. rewrite Ei. cbn [andb]. destruct (typename_requested (map fst L)) eqn:Ty; [exfalso|now left].
          unfold typename_requested in Ty. apply existsb_exists in Ty as ([g t] & J & K). apply andb_true_iff in K as [K1 K2].
          cbn [fst] in K1, K2. apply String.eqb_eq in K1. apply in_map_iff in J as ([gt a] & E & J). cbn in E. subst gt.
          apply F in J as (m & sb & J & S2 & _). pose proof (served_name _ _ S2) as [S3 _]. rewrite S3 in K1. subst m.
          apply (NT g J S2). now destruct (b_fragment g).
  Qed.

  Lemma entries (l : list field) : (forall g, In g l -> tame g) ->
    (forall (g : field) n, In g l -> served g n -> exists sb, Built cooked (field_text g) (ask_text (AskField n (given g) (marked g) sb)) /\
       forall p, Asked sb p <-> Wants (of_interface g) (b_sel g) p) ->
    forall k, incl k l -> exists L : list entry,
      map fst L = filter (fun p => asked_upstream (fst p)) (map (fun g => (g, field_text g)) k) /\ Forall (fair l) L.
  Proof.
    intros T H. induction k as [|g k IH]; intros I; [now exists []|]. destruct IH as (L & E & F); [intros x J; apply I; now right|].
    assert (J : In g l) by (apply I; now left). cbn [map filter fst]. destruct (asked_upstream g) eqn:A; [|now exists L].
    destruct (tame_asked g (T g J) A) as [n S1]. destruct (H g n J S1) as (sb & B & W).
    exists (((g, field_text g), AskField n (given g) (marked g) sb) :: L). split; [cbn [map fst]; now rewrite E|].
    constructor; [|exact F]. exists n, sb. refine (conj J (conj S1 (conj (T g J) (conj B (conj eq_refl W))))).
  Qed.

  Lemma field_text_eq (f : field) : field_text f =
    upstream_name f ++ field_arguments number_text quoted escape_default f ++ field_directives number_text quoted escape_default f
    ++ match set_text (of_interface f) (map (fun g => (g, field_text g)) (b_sel f)) with Some s => " " ++ s | None => "" end.
  Proof. destruct f; reflexivity. Qed.

  Lemma asked_nil p : ~ Asked [] p.
  Proof. intros A. inversion A; match goal with [H : In _ [] |- _] => destruct H end. Qed.

  Lemma field_built (f : field) : forall n, tame f -> served f n ->
    exists sb, Built cooked (field_text f) (ask_text (AskField n (given f) (marked f) sb)) /\
               forall p, Asked sb p <-> Wants (of_interface f) (b_sel f) p.
  Proof.
    induction f as [f IH] using bfield_nest. intros n T S1.
    destruct T as [f R|f m S2 Nm Fr Ar Ds Sub].
    { apply resolved_not_asked in R. apply served_name in S1 as [_ S1]. congruence. }
    destruct (served_name _ _ S1) as [E1 _]. destruct (served_name _ _ S2) as [E2 _]. rewrite E1 in E2. subst m. clear S2.
    destruct (entries (b_sel f) Sub (fun g n' I S' => IH g I n' (Sub g I) S') (b_sel f) (incl_refl _)) as (L & EL & FL).
    pose proof (set_built (of_interface f) (b_sel f) L EL FL) as SB.
    rewrite field_text_eq, E1. cbn [ask_text].
    destruct (set_text _ _) as [t|].
    - destruct SB as (asks & t' & -> & NE & B & W). exists asks. split; [|exact W].
      apply built_app; [apply built_one; now apply cooked_words|]. apply built_app; [now apply built_arguments|].
      apply built_app; [now apply built_directives|]. destruct asks as [|a0 asks0]; [now destruct NE|].
      change (" { " ++ between " " (map ask_text (a0 :: asks0)) ++ " }") with (" " ++ ("{ " ++ between " " (map ask_text (a0 :: asks0))) ++ " }").
      apply built_app; [apply built_one; split; [now apply json_of_plain|reflexivity]|].
      apply built_app; [exact B|apply built_one; split; [now apply json_of_plain|reflexivity]].
    - exists []. split; [|intros p; split; [intros A; now apply asked_nil in A|intros A; now apply SB in A]].
      apply built_app; [apply built_one; now apply cooked_words|]. apply built_app; [now apply built_arguments|].
      apply built_app; [now apply built_directives|constructor].
  Qed.

  Lemma something_wanted (iface : bool) (l : list field) t : (forall g, In g l -> tame g) ->
    format_selection number_text quoted escape_default interfaces shuffle iface l = Some t -> exists p, Wants iface l p.
  Proof.
    intros T E. unfold format_selection, UpstreamModel.set_text in E. cbv zeta in E.
    destruct (filter _ _) as [|[g u] k] eqn:Ek; [discriminate|].
    assert (I : In (g, u) ((g, u) :: k)) by now left. rewrite <- Ek in I. apply filter_In in I as [I A]. cbn in A.
    apply in_map_iff in I as (g' & [= -> _] & I). destruct (tame_asked g (T g I) A) as [n S1].
    exists [step_of number_text quoted vars iface g n]. now apply wants_field.
  Qed.

  (** The selection of a call. *)
  Lemma selection_written (iface : bool) (l : list field) : (forall g, In g l -> tame g) ->
    match format_selection number_text quoted escape_default interfaces shuffle iface l with
    | None => forall p, ~ Wants iface l p
    | Some t => exists asks, (exists p, Wants iface l p) /\ (forall p, Asked asks p <-> Wants iface l p) /\
        json_chars (render (variable_text number_text quoted vars) (parse t)) (asks_text asks)
    end.
  Proof.
    intros T. destruct (entries l T (fun g n I S1 => field_built g n (T g I) S1) l (incl_refl _)) as (L & EL & FL).
    pose proof (set_built iface l L EL FL) as SB. pose proof (fun t => something_wanted iface l t T) as SW.
    unfold format_selection in *. destruct (set_text _ _) as [t|]; [|exact SB].
    pose proof (SW t eq_refl) as NE. destruct SB as (asks & t' & -> & _ & B & W). exists asks. refine (conj NE (conj W _)). unfold asks_text.
    rewrite <- str_app_assoc. apply (built_render (sub number_text quoted vars)); [|exact B]. apply sub_variable.
  Qed.
End Selections.

Lemma show_render f m : mustache_is_const m = true -> show m = render f m.
Proof.
  unfold show, render. induction m as [|[t|p] m IH]; cbn [mustache_is_const]; intros H; [reflexivity| |discriminate].
  cbn [map]. rewrite !concat_nil_cons. now rewrite IH.
Qed.

(** * Calls *)
Section Calls.
  Context {C : Type}.
  Lemma calls_modify (h : C -> C) (e : ir C) : forall c', Calls (modify_io h e) c' <-> exists c, Calls e c /\ c' = h c.
  Proof.
    induction e as [d|io|age io|e p IH|p|a e IH|e m IH|e1 e2 IH1 IH2|l IH|d e IH|m IH|s] using ir_ind'; cbn [modify_io]; intros c'.
    all: try (split; [intros K; inversion K|intros (c & K & _); inversion K]; fail).
    - split; [intros K; inversion K; subst; eexists; split; [constructor|reflexivity]|intros (c & K & ->); inversion K; constructor].
    - split; [intros K; inversion K; subst; eexists; split; [constructor|reflexivity]|intros (c & K & ->); inversion K; constructor].
    - split.
      + intros K; inversion K as [| |? ? ? K1| | | | | |]; subst. apply IH in K1 as (c & K1 & ->). exists c. split; [now constructor|reflexivity].
      + intros (c & K & ->). inversion K; subst. constructor. apply IH. eauto.
    - split.
      + intros K; inversion K as [| | |? ? ? K1| | | | |]; subst. apply IH in K1 as (c & K1 & ->). exists c. split; [now constructor|reflexivity].
      + intros (c & K & ->). inversion K; subst. constructor. apply IH. eauto.
    - split.
      + intros K; inversion K as [| | | |? ? ? K1| | | |]; subst. apply IH in K1 as (c & K1 & ->). exists c. split; [now constructor|reflexivity].
      + intros (c & K & ->). inversion K; subst. constructor. apply IH. eauto.
    - split.
      + intros K; inversion K as [| | | | |? ? ? K1|? ? ? K1| |]; subst; [apply IH1 in K1 as (c & K1 & ->)|apply IH2 in K1 as (c & K1 & ->)];
          exists c; (split; [|reflexivity]); [now apply calls_left|now apply calls_right].
      + intros (c & K & ->). inversion K; subst; [apply calls_left; apply IH1; eauto|apply calls_right; apply IH2; eauto].
    - split.
      + intros K; inversion K as [| | | | | | |? ? ? K1|]; subst. apply IH in K1 as (c & K1 & ->). exists c. split; [now constructor|reflexivity].
      + intros (c & K & ->). inversion K; subst. constructor. apply IH. eauto.
    - replace ((fix go (m : list (string * ir C)) : list (string * ir C) := match m with [] => [] | (k, e) :: t => (k, modify_io h e) :: go t end) m)
        with (map (fun ke => (fst ke, modify_io h (snd ke))) m) by (clear; induction m as [|[k e] m IH]; cbn; [reflexivity|now rewrite IH]).
      rewrite Forall_forall in IH. split.
      + intros K; inversion K as [| | | | | | | |? k e ? I K1]; subst. apply in_map_iff in I as ([k0 e0] & [= <- <-] & I). cbn in K1.
        apply (IH _ I) in K1 as (c & K1 & ->). exists c. split; [now apply (calls_entity m k0 e0)|reflexivity].
      + intros (c & K & ->). inversion K as [| | | | | | | |? k e ? I K1]; subst. apply (calls_entity _ k (modify_io h e)).
        * apply in_map_iff. now exists (k, e).
        * apply (IH _ I). eauto.
  Qed.
End Calls.

Lemma within_map {IR} (h : bfield IR -> bfield IR) : (forall f, b_sel (h f) = map h (b_sel f)) ->
  forall l f', Within (map h l) f' -> exists f, Within l f /\ f' = h f.
Proof.
  intros Hs l f' W. remember (map h l) as k eqn:Ek. revert l Ek. induction W as [k f' I|k g f' I W IH]; intros l ->.
  - apply in_map_iff in I as (f & <- & I). exists f. split; [now constructor|reflexivity].
  - apply in_map_iff in I as (f & <- & I). destruct (IH (b_sel f) (Hs f)) as (f0 & W0 & ->).
    exists f0. split; [now apply (within_below l f)|reflexivity].
Qed.

Section Result.
  Variable number_text : number -> string.
  Variable quoted : string -> string.
  Context {O : Type}.
  Notation field := (bfield (ir (call O))).
  Variable vars : list (string * value).
  Variable interfaces : list string.
  Variable shuffle : list field -> list (string * list string) -> list (string * list string).
  Hypothesis Sh : forall l m, Permutation (shuffle l m) m.
  Notation Wants := (Wants number_text quoted interfaces vars).
  Notation tame := (tame number_text quoted vars).
  Notation plan_selections := (plan_selections number_text quoted escape_default interfaces shuffle).
  Notation resolve_selections := (resolve_selections number_text quoted vars).
  Notation plan_call := (plan_call number_text quoted escape_default interfaces shuffle).
  Notation resolve_call := (resolve_call number_text quoted vars).

  Lemma planned_field (plan : list field) f' :
    Within (map (fun f => resolve_selections (plan_selections f)) plan) f' ->
    exists f, Within plan f /\ f' = resolve_selections (plan_selections f).
  Proof. apply within_map. now intros []; cbn; rewrite map_map. Qed.

  Lemma planned_calls (f : field) e' : b_ir (resolve_selections (plan_selections f)) = Some e' ->
    exists e, b_ir f = Some e /\ forall c', Calls e' c' <-> exists c, Calls e c /\ c' = resolve_call (plan_call f c).
  Proof.
    destruct f as [i n o [e|] t c s inc a fr ds en sc l]; [|discriminate]. cbn. intros [= <-]. exists e. split; [reflexivity|]. intros c'.
    rewrite calls_modify. split.
    - intros (c1 & H & ->). apply calls_modify in H as (c2 & H & ->). eauto.
    - intros (c1 & H & ->). eexists. split; [|reflexivity]. apply calls_modify. eauto.
  Qed.

  Lemma planned_call (f : field) (iface : bool) t s :
    (iface = true <-> interface_typed interfaces f) -> (forall g, In g (b_sel f) -> tame g) ->
    (exists text asks, resolve_call (plan_call f (GraphqlCall t s)) = GraphqlCall t (Some (Resolved text)) /\
       json_chars text (asks_text asks) /\ (exists p, Wants iface (b_sel f) p) /\ forall p, Asked asks p <-> Wants iface (b_sel f) p) \/
    (plan_call f (GraphqlCall t s) = GraphqlCall t s /\ forall p, ~ Wants iface (b_sel f) p).
  Proof.
    intros Hi T. replace iface with (of_interface interfaces f)
      by (apply eq_true_iff_eq; rewrite Hi; unfold interface_typed; apply smem_In).
    pose proof (selection_written number_text quoted vars interfaces shuffle Sh (of_interface interfaces f) (b_sel f) T) as SW.
    cbn [UpstreamModel.plan_call]. destruct (format_selection _ _ _ _ _ _ _) as [txt|]; [|right; split; [reflexivity|exact SW]].
    left. destruct SW as (asks & NE & W & J). unfold planned_from. destruct (mustache_is_const (parse txt)) eqn:Ec; cbn [UpstreamModel.resolve_call].
    - exists (show (parse txt)), asks. split; [reflexivity|]. split; [|now split]. now rewrite (show_render (variable_text number_text quoted vars)).
    - eexists _, asks. split; [reflexivity|]. split; [exact J|now split].
  Qed.
End Result.
