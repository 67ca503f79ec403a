(** Proofs about the texts of documents: the tokens of definitions *)
From Coq Require Import String Ascii ZArith NArith Bool Arith List Lia.
From Verif Require Import Base TypeModel DocModel OpGenModel StringFacts PrModel PrSpec PrProofs.
Import ListNotations.
Open Scope string_scope.
Open Scope list_scope.

Definition tk_default (o : option string) : list token := match o with Some v => Punct "=" :: value_tokens v | None => [] end.
Lemma t_default o : default_ok o -> T (print_default_value o) (tk_default o).
Proof. destruct o as [v|]; [|reflexivity]. intros H. cbn [print_default_value tk_default]. change (Punct "=" :: value_tokens v) with ([Punct "="] ++ value_tokens v). apply t_closed; [reflexivity|now apply t_value]. Qed.
Lemma default_delim o : delim (print_default_value o) = true. Proof. destruct o; reflexivity. Qed.

Definition tk_typed (n : string) (t : ptype) : list token := Word n :: Punct ":" :: tk_type t.
Lemma t_typed n t s l : is_name n -> type_ok t -> delim s = true -> T s l -> T (n ++ ": " ++ PrModel.type_text t ++ s)%string (tk_typed n t ++ l).
Proof.
  intros N Ty D S. change (tk_typed n t ++ l) with ([Word n] ++ [Punct ":"] ++ tk_type t ++ l).
  apply t_delim; [now apply t_name|reflexivity|]. apply t_closed; [reflexivity|]. apply t_delim; [now apply t_type|exact D|exact S].
Qed.
Definition tk_argument (a : input_value Args) : list token := tk_typed (iv_name a) (iv_type a) ++ tk_default (iv_default a).
Lemma t_argument a : argument_ok a -> T (print_argument a) (tk_argument a).
Proof. intros (N & Ty & D). unfold print_argument, tk_argument. apply t_typed; auto using t_default, default_delim. Qed.
Definition tk_input (i : input_value Args) : list token :=
  tk_doc 2 (iv_doc i) ++ tk_typed (iv_name i) (iv_type i) ++ tk_dirs (iv_dirs i) ++ tk_default (iv_default i).
Lemma t_input i : input_ok i -> T (print_input_value i) (tk_input i).
Proof.
  intros ((N & Ty & D) & S & Di & _). unfold print_input_value, tk_input.
  apply t_closed; [now apply c_formatted|]. change (T ("  " ++ iv_name i ++ ": " ++ PrModel.type_text (iv_type i) ++ print_pos_directives (iv_dirs i) ++ print_default_value (iv_default i))%string
    ([] ++ tk_typed (iv_name i) (iv_type i) ++ tk_dirs (iv_dirs i) ++ tk_default (iv_default i))).
  apply t_closed; [reflexivity|]. apply t_typed; auto.
  - apply delim_app; [apply pos_delim|apply default_delim].
  - apply t_closed; [now apply c_pos|now apply t_default].
Qed.
Definition tk_arguments (l : list (input_value Args)) : list token := match l with [] => [] | l => Punct "(" :: flat_map tk_argument l ++ [Punct ")"] end.
Definition tk_field (f : field_def Args) : list token :=
  tk_doc 2 (fd_doc f) ++ Word (fd_name f) :: tk_arguments (fd_args f) ++ Punct ":" :: tk_type (fd_type f) ++ tk_dirs (fd_dirs f).
Lemma t_field f : field_ok f -> T (print_field f) (tk_field f).
Proof.
  intros (Do & N & A & Ty & Di). unfold print_field, tk_field. apply t_closed; [now apply c_plain_docs|].
  unfold T, tokens. apply trim_tokens. change (T ("  " ++ fd_name f ++ match fd_args f with [] => "" | l => "(" ++ String.concat ", " (map print_argument l) ++ ")" end
     ++ ": " ++ PrModel.type_text (fd_type f) ++ " " ++ print_pos_directives (fd_dirs f))%string
    ([] ++ [Word (fd_name f)] ++ tk_arguments (fd_args f) ++ [Punct ":"] ++ tk_type (fd_type f) ++ [] ++ tk_dirs (fd_dirs f))).
  apply t_closed; [reflexivity|]. apply t_delim; [now apply t_name|destruct (fd_args f); reflexivity|].
  assert (R : T (": " ++ PrModel.type_text (fd_type f) ++ " " ++ print_pos_directives (fd_dirs f))%string ([Punct ":"] ++ tk_type (fd_type f) ++ [] ++ tk_dirs (fd_dirs f))).
  { apply t_closed; [reflexivity|]. apply t_delim; [now apply t_type|reflexivity|]. apply t_closed; [reflexivity|]. apply c_t. now apply c_pos. }
  destruct (fd_args f) as [|x l] eqn:E; [exact R|]. apply t_delim; [|reflexivity|exact R].
  change (tk_arguments (x :: l)) with ([Punct "("] ++ flat_map tk_argument (x :: l) ++ [Punct ")"]). apply t_closed; [reflexivity|].
  apply t_delim; [|reflexivity|reflexivity]. apply t_lines; [reflexivity|discriminate|reflexivity|]. intros a I. rewrite Forall_forall in A. apply t_argument. now apply A.
Qed.
Definition tk_value (v : string * list directive) : list token := Word (fst v) :: tk_dirs (snd v).
Lemma t_enum_value v : is_name (fst v) -> dirs_ok (snd v) -> T (print_enum_value v) (tk_value v).
Proof.
  destruct v as [n ds]. cbn [fst snd]. intros N D. unfold print_enum_value, tk_value. cbn [fst snd]. pose proof (c_pos _ D) as K. destruct (print_pos_cases ds) as [[E1 E2]|(_ & E & s & E')].
  - rewrite E2, E1. cbn [String.eqb]. change (T ("  " ++ n) ([] ++ [Word n])). apply t_closed; [reflexivity|now apply t_name].
  - assert (F : String.eqb (print_pos_directives ds) "" = false) by (rewrite E, E'; reflexivity). rewrite F.
    change (T ("  " ++ n ++ " " ++ print_pos_directives ds)%string ([] ++ [Word n] ++ [] ++ tk_dirs ds)).
    apply t_closed; [reflexivity|]. apply t_delim; [now apply t_name|reflexivity|]. apply t_closed; [reflexivity|]. now apply c_t.
Qed.

Definition tk_implements (l : list string) : list token := match l with [] => [] | l => Word "implements" :: parts [Punct "&"] (map (fun n => [Word n]) l) end.
Lemma c_space_t s l t m : T s l -> T t m -> T (s ++ " " ++ t)%string (l ++ m).
Proof. intros A B. apply t_delim; [exact A|reflexivity|]. change m with ([] ++ m). apply t_closed; [reflexivity|exact B]. Qed.
Lemma t_implements l s m : Forall is_name l -> T s m -> T (print_implements l ++ s)%string (tk_implements l ++ m).
Proof.
  intros H S. destruct l as [|n l]; [exact S|].
  change (print_implements (n :: l)) with ("implements " ++ String.concat " & " (n :: l) ++ " ")%string.
  rewrite str_app_assoc, str_app_assoc. change (tk_implements (n :: l)) with ([Word "implements"] ++ parts [Punct "&"] (map (fun n => [Word n]) (n :: l))).
  rewrite <- app_assoc. apply t_closed; [reflexivity|]. apply c_space_t; [|exact S].
  apply t_concat; [reflexivity|discriminate|reflexivity|]. rewrite <- (map_id (n :: l)) at 1. apply t_map. intros x X. rewrite Forall_forall in H. apply t_name. now apply H.
Qed.
Definition tk_block {A} (g : A -> list token) (l : list A) : list token := Punct "{" :: flat_map g l ++ [Punct "}"].
Lemma t_block {A} (f : A -> string) (g : A -> list token) l : (forall x, In x l -> T (f x) (g x)) ->
  T ("{" ++ newline ++ String.concat newline (map f l) ++ newline ++ "}" ++ newline)%string (tk_block g l).
Proof.
  intros H. change (tk_block g l) with ([Punct "{"] ++ [] ++ flat_map g l ++ [Punct "}"]). apply t_closed; [reflexivity|]. apply t_closed; [reflexivity|].
  apply t_delim; [|reflexivity|reflexivity]. apply t_lines; [reflexivity|discriminate|reflexivity|exact H].
Qed.

Definition tk_def (t : type_def Args) : list token :=
  match td_kind t with
  | KScalar => tk_doc 0 (td_doc t) ++ [Word "scalar"; Word (td_name t)]
  | KUnion ms => [Word "union"; Word (td_name t)] ++ tk_dirs (td_dirs t) ++ [Punct "="] ++ parts [Punct "|"] (map (fun n => [Word n]) ms)
  | KInput fs => tk_doc 0 (td_doc t) ++ [Word "input"; Word (td_name t)] ++ tk_dirs (td_dirs t) ++ tk_block tk_input fs
  | KInterface is fs => [Word "interface"; Word (td_name t)] ++ tk_implements is ++ tk_block tk_field fs
  | KObject is fs => tk_doc 2 (td_doc t) ++ [Word "type"; Word (td_name t)] ++ tk_implements is ++ tk_dirs (td_dirs t) ++ tk_block tk_field fs
  | KEnum vs => tk_doc 0 (td_doc t) ++ [Word "enum"; Word (td_name t)] ++ tk_dirs (td_dirs t) ++ tk_block tk_value vs
  end.
Lemma t_head k n s m : C (k ++ " ")%string [Word k] -> is_name n -> T s m -> T ((k ++ " ") ++ n ++ " " ++ s)%string ([Word k; Word n] ++ m).
Proof.
  intros K N S. change ([Word k; Word n] ++ m) with ([Word k] ++ [Word n] ++ m). apply t_closed; [exact K|]. apply c_space_t; [now apply t_name|exact S].
Qed.
Lemma t_def t : type_def_ok t -> T (print_type_def t) (tk_def t).
Proof.
  intros [N H]. unfold print_type_def, tk_def. destruct (td_kind t) as [|is fs|is fs|ms|vs|fs].
  - apply t_closed; [now apply c_formatted|]. change (T ("scalar " ++ td_name t ++ newline)%string ([Word "scalar"] ++ [Word (td_name t)] ++ [])).
    apply t_closed; [reflexivity|]. apply t_delim; [now apply t_name|reflexivity|reflexivity].
  - destruct H as (Do & Di & I & _ & F). apply t_closed; [now apply c_plain_docs|]. apply (t_head "type"); [reflexivity|exact N|].
    apply t_implements; [exact I|]. apply t_closed; [now apply c_pos|]. apply t_block. intros f X. rewrite Forall_forall in F. apply t_field. now apply F.
  - destruct H as (I & _ & F). apply (t_head "interface"); [reflexivity|exact N|].
    apply t_implements; [exact I|]. apply t_block. intros f X. rewrite Forall_forall in F. apply t_field. now apply F.
  - destruct H as (Di & _ & F).
    change (T ("union " ++ td_name t ++ print_pos_directives (td_dirs t) ++ " = " ++ String.concat " | " ms ++ newline)%string
      ([Word "union"] ++ [Word (td_name t)] ++ tk_dirs (td_dirs t) ++ [Punct "="] ++ parts [Punct "|"] (map (fun n => [Word n]) ms))).
    apply t_closed; [reflexivity|]. apply t_delim; [now apply t_name|apply delim_app; [apply pos_delim|reflexivity]|]. apply t_closed; [now apply c_pos|].
    apply t_closed; [reflexivity|]. rewrite <- (app_nil_r (parts _ _)). apply t_delim; [|reflexivity|reflexivity].
    apply t_concat; [reflexivity|discriminate|reflexivity|]. rewrite <- (map_id ms) at 1. apply t_map. intros x X. rewrite Forall_forall in F. apply t_name. now apply F.
  - destruct H as (Do & Di & _ & F). apply t_closed; [now apply c_enum_docs|]. apply (t_head "enum"); [reflexivity|exact N|].
    apply t_closed; [now apply c_pos|]. apply t_block. intros v X. rewrite Forall_forall in F. destruct (F v X) as (A & _ & B). now apply t_enum_value.
  - destruct H as (Do & Di & _ & F). apply t_closed; [now apply c_formatted|]. apply (t_head "input"); [reflexivity|exact N|].
    apply t_closed; [now apply c_pos|]. apply t_block. intros v X. rewrite Forall_forall in F. apply t_input. now apply F.
Qed.
Definition tk_root (k : string) (o : option string) : list token := match o with Some n => [Word k; Punct ":"; Word n] | None => [] end.
Definition tk_schema (s : schema_def Args) : list token :=
  match sd_mutation s, sd_query s with
  | None, None => []
  | _, _ => Word "schema" :: tk_dirs (sd_dirs s) ++ Punct "{" :: (tk_root "query" (sd_query s) ++ tk_root "mutation" (sd_mutation s) ++ tk_root "subscription" (sd_subscription s)) ++ [Punct "}"]
  end.
Lemma t_root k o s m : C ("  " ++ k ++ ": ")%string [Word k; Punct ":"] -> root_ok o -> T s m ->
  T (match o with Some n => "  " ++ k ++ ": " ++ n ++ newline | None => "" end ++ s)%string (tk_root k o ++ m).
Proof.
  intros K R S. destruct o as [n|]; [|exact S]. cbn [root_ok] in R.
  assert (E : (("  " ++ k ++ ": " ++ n ++ newline) ++ s)%string = (("  " ++ k ++ ": ") ++ n ++ newline ++ s)%string) by (repeat rewrite !str_app_assoc; reflexivity).
  rewrite E. change (tk_root k (Some n) ++ m) with ([Word k; Punct ":"] ++ [Word n] ++ [] ++ m). apply t_closed; [exact K|].
  apply t_delim; [now apply t_name|reflexivity|]. apply t_closed; [reflexivity|exact S].
Qed.
Lemma t_schema s : def_ok (DSchema s) -> T (print_schema s) (tk_schema s).
Proof.
  intros (Di & Q & M & S). unfold print_schema, tk_schema.
  assert (K : T ("schema " ++ print_pos_directives (sd_dirs s) ++ "{" ++ newline
      ++ match sd_query s with Some n => "  " ++ "query" ++ ": " ++ n ++ newline | None => "" end
      ++ match sd_mutation s with Some n => "  " ++ "mutation" ++ ": " ++ n ++ newline | None => "" end
      ++ match sd_subscription s with Some n => "  " ++ "subscription" ++ ": " ++ n ++ newline | None => "" end ++ "}" ++ newline)%string
    (Word "schema" :: tk_dirs (sd_dirs s) ++ Punct "{" :: (tk_root "query" (sd_query s) ++ tk_root "mutation" (sd_mutation s) ++ tk_root "subscription" (sd_subscription s)) ++ [Punct "}"])).
  { rewrite <- !app_assoc.
    match goal with |- T _ (_ :: ?a ++ _ :: ?b) => change (Word "schema" :: a ++ Punct "{" :: b) with ([Word "schema"] ++ a ++ [Punct "{"] ++ [] ++ b) end.
    apply t_closed; [reflexivity|]. apply t_closed; [now apply c_pos|]. apply t_closed; [reflexivity|]. apply t_closed; [reflexivity|].
    apply t_root; [reflexivity|exact Q|]. apply t_root; [reflexivity|exact M|]. apply t_root; [reflexivity|exact S|]. reflexivity. }
  destruct (sd_mutation s), (sd_query s); try exact K; reflexivity.
Qed.

(** ** The whole document *)
Definition tk_defs (doc : document Args) : list (list token) :=
  let of_rank n := flat_map (fun d => match d with DType t => if Nat.eqb (rank (td_kind t)) n then [tk_def t] else [] | _ => [] end) doc in
  flat_map (fun d => match d with DSchema s => [tk_schema s] | _ => [] end) doc ++ flat_map of_rank [0; 1; 2; 3; 4; 5].
Lemma two_flat {A} (f : A -> list string) (g : A -> list (list token)) l : (forall x, In x l -> Forall2 T (f x) (g x)) -> Forall2 T (flat_map f l) (flat_map g l).
Proof. induction l as [|x l IH]; intros H; [constructor|]. cbn. apply Forall2_app; [apply H; now left|apply IH; intros y Y; apply H; now right]. Qed.
Lemma t_print doc : readable doc -> T (print "" doc) (List.concat (tk_defs doc)).
Proof.
  intros R. unfold print, T, tokens. apply trim_newlines_tokens. rewrite <- parts_nil. apply t_concat; [reflexivity|discriminate|reflexivity|].
  unfold readable in R. rewrite Forall_forall in R.
  unfold tk_defs. apply Forall2_app.
  { apply two_flat. intros d D. pose proof (R d D) as K. destruct d as [s|t|]; constructor; [|constructor]. now apply t_schema. }
  assert (Z : flat_map (fun d : definition Args => match d with DDirective => [""] | _ => [] end) doc = []).
  { clear -R. induction doc as [|d doc IH]; [reflexivity|]. cbn. rewrite IH by (intros x X; apply R; now right). pose proof (R d (or_introl eq_refl)) as K. destruct d; [reflexivity|reflexivity|destruct K]. }
  rewrite Z. cbn [app flat_map].
  assert (Of : forall p n, (forall k : kind Args, p k = Nat.eqb (rank k) n) ->
    Forall2 T (flat_map (fun d : definition Args => match d with DType t => if p (td_kind t) then [print_type_def t] else [] | _ => [] end) doc)
              (flat_map (fun d : definition Args => match d with DType t => if Nat.eqb (rank (td_kind t)) n then [tk_def t] else [] | _ => [] end) doc)).
  { intros p n P. apply two_flat. intros d D. pose proof (R d D) as K. destruct d as [s|t|]; [constructor| |constructor].
    rewrite P. destruct (Nat.eqb _ n); constructor; [|constructor]. now apply t_def. }
  rewrite app_nil_r.
  apply Forall2_app; [apply (Of (fun k => match k with KScalar => true | _ => false end) 0); intros []; reflexivity|].
  apply Forall2_app; [apply (Of (fun k => match k with KInput _ => true | _ => false end) 1); intros []; reflexivity|].
  apply Forall2_app; [apply (Of (fun k => match k with KInterface _ _ => true | _ => false end) 2); intros []; reflexivity|].
  apply Forall2_app; [apply (Of (fun k => match k with KUnion _ => true | _ => false end) 3); intros []; reflexivity|].
  apply Forall2_app; [apply (Of (fun k => match k with KEnum _ => true | _ => false end) 4); intros []; reflexivity|].
  apply (Of (fun k => match k with KObject _ _ => true | _ => false end) 5); intros []; reflexivity.
Qed.
