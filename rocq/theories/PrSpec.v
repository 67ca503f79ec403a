(** What the text of a document says: a reader of the type system definitions of GraphQL (October 2021, 2 and 3), and what of a
    document is to be found in its text. *)
From Coq Require Import String Ascii ZArith NArith Bool Arith List.
From Verif Require Import Base TypeModel DocModel.
Import ListNotations.
Open Scope string_scope.
Open Scope list_scope.

(** * Lexical tokens *)
(** Words are names and numbers.  Strings are kept as they are written, without the quotes. *)
Inductive token : Type :=
| Word (w : string)
| Punct (c : ascii)
| Text (raw : string)
| Block (raw : string).

Definition code (c : ascii) : N := N_of_ascii c.
Definition between (a b : N) (c : ascii) : bool := (N.leb a (code c) && N.leb (code c) b)%bool.
Definition letter (c : ascii) : bool := (between 65 90 c || between 97 122 c || N.eqb (code c) 95)%bool.
Definition digit (c : ascii) : bool := between 48 57 c.
(** letters, digits, [_], and the [+], [-] and [.] of numbers *)
Definition word_char (c : ascii) : bool := (letter c || digit c || N.eqb (code c) 43 || N.eqb (code c) 45 || N.eqb (code c) 46)%bool.
(** white space, the ends of lines and commas *)
Definition ignored (c : ascii) : bool := (N.eqb (code c) 32 || N.eqb (code c) 9 || N.eqb (code c) 10 || N.eqb (code c) 13 || N.eqb (code c) 44)%bool.
Definition line_end (c : ascii) : bool := (N.eqb (code c) 10 || N.eqb (code c) 13)%bool.
Definition is_quote (c : ascii) : bool := N.eqb (code c) 34.
Definition backslash (c : ascii) : bool := N.eqb (code c) 92.
Definition punct (c : ascii) : bool :=
  existsb (Ascii.eqb c) ["!"; "$"; "&"; "("; ")"; ":"; "="; "@"; "["; "]"; "{"; "|"; "}"]%char.

(** Where in a token a text stands.  [Quotes n]: after [n] quotes that may be the start of a block. [Inner]: in a string, [Inner_escape]:
    after a backslash in it. [Lines raw q]: in a block, after [q] quotes; [Lines_escape]: after a backslash and [q] quotes in it. *)
Inductive place : Type :=
| Between
| In_word (w : string)
| Quotes (two : bool)
| Inner (raw : string)
| Inner_escape (raw : string)
| Lines (raw : string) (q : nat)
| Lines_escape (raw : string) (q : nat).
Definition one (c : ascii) : string := String c "".
Fixpoint quotes_of (q : nat) : string := match q with O => "" | S q => String (ascii_of_nat 34) (quotes_of q) end.

Definition start (c : ascii) : option (list token * place) :=
  if ignored c then Some ([], Between)
  else if word_char c then Some ([], In_word (one c))
  else if is_quote c then Some ([], Quotes false)
  else if punct c then Some ([Punct c], Between)
  else None.
Definition after (t : token) (o : option (list token * place)) : option (list token * place) :=
  match o with Some (l, p) => Some (t :: l, p) | None => None end.
Definition inner (raw : string) (c : ascii) : option (list token * place) :=
  if is_quote c then Some ([Text raw], Between)
  else if backslash c then Some ([], Inner_escape (raw ++ one c))
  else if line_end c then None
  else Some ([], Inner (raw ++ one c)).
Definition lines (raw : string) (c : ascii) : place :=
  if backslash c then Lines_escape raw 0 else Lines (raw ++ one c) 0.
(** Comments are not read. *)
Definition step (p : place) (c : ascii) : option (list token * place) :=
  match p with
  | Between => start c
  | In_word w => if word_char c then Some ([], In_word (w ++ one c)) else after (Word w) (start c)
  | Quotes false => if is_quote c then Some ([], Quotes true) else inner "" c
  | Quotes true => if is_quote c then Some ([], Lines "" 0) else after (Text "") (start c)
  | Inner raw => inner raw c
  | Inner_escape raw => if line_end c then None else Some ([], Inner (raw ++ one c))
  | Lines raw q =>
      if is_quote c then match q with 2 => Some ([Block raw], Between) | _ => Some ([], Lines raw (S q)) end
      else Some ([], lines (raw ++ quotes_of q) c)
  | Lines_escape raw q =>
      if is_quote c then match q with 2 => Some ([], Lines (raw ++ quotes_of 3) 0) | _ => Some ([], Lines_escape raw (S q)) end
      else Some ([], lines (raw ++ one (ascii_of_nat 92) ++ quotes_of q) c)
  end.
Definition finish (p : place) : option (list token) :=
  match p with
  | Between => Some []
  | In_word w => Some [Word w]
  | Quotes true => Some [Text ""]
  | _ => None
  end.
Fixpoint tokens_from (p : place) (s : string) : option (list token) :=
  match s with
  | "" => finish p
  | String c t =>
      match step p c with
      | Some (l, p) => match tokens_from p t with Some m => Some (l ++ m) | None => None end
      | None => None
      end
  end.
Definition tokens (s : string) : option (list token) := tokens_from Between s.

(** * The value of a block: without its common indentation and without blank lines at its ends *)
Fixpoint split_lines (s : string) : list string :=
  match s with
  | "" => [""]
  | String c t =>
      if N.eqb (code c) 10 then "" :: split_lines t
      else match split_lines t with [] => [one c] | l :: r => String c l :: r end
  end.
Definition blank_char (c : ascii) : bool := (N.eqb (code c) 32 || N.eqb (code c) 9)%bool.
Fixpoint indent (s : string) : nat :=
  match s with "" => 0 | String c t => if blank_char c then S (indent t) else 0 end.
Definition blank (s : string) : bool := Nat.eqb (indent s) (String.length s).
Definition min_indent (l : list string) : option nat :=
  fold_right (fun s m => if blank s then m else Some (match m with Some m => Nat.min (indent s) m | None => indent s end)) None l.
Fixpoint drop (n : nat) (s : string) : string :=
  match n, s with S n, String _ t => drop n t | _, _ => s end.
Fixpoint drop_blank (l : list string) : list string :=
  match l with s :: r => if blank s then drop_blank r else l | [] => [] end.
Definition block_value (raw : string) : string :=
  match split_lines raw with
  | [] => ""
  | first :: rest =>
      let n := match min_indent rest with Some n => n | None => 0 end in
      String.concat (one (ascii_of_nat 10)) (rev (drop_blank (rev (drop_blank (first :: map (drop n) rest)))))
  end.

(** * Documents as they are read.  Values are kept as their tokens. *)
Record r_dir := { rd_name : string; rd_args : list (string * list token) }.
Record r_input := { ri_doc : option string; ri_name : string; ri_type : ptype; ri_default : option (list token); ri_dirs : list r_dir }.
Record r_field := { rf_doc : option string; rf_name : string; rf_args : list r_input; rf_type : ptype; rf_dirs : list r_dir }.
Inductive r_kind : Type :=
| RScalar
| RObject (implements : list string) (fields : list r_field)
| RInterface (implements : list string) (fields : list r_field)
| RUnion (members : list string)
| REnum (values : list (string * list r_dir))
| RInput (fields : list r_input).
Inductive r_def : Type :=
| RType (doc : option string) (name : string) (dirs : list r_dir) (k : r_kind)
| RSchema (dirs : list r_dir) (roots : list (string * string)).

Fixpoint all_chars (p : ascii -> bool) (s : string) : bool := match s with "" => true | String c t => (p c && all_chars p t)%bool end.
Definition name (s : string) : bool :=
  match s with "" => false | String c t => (letter c && all_chars (fun c => letter c || digit c) t)%bool end.

(** * The reader: each function gives what it has read and what is left *)
Notation reads A := (list token -> option (A * list token)).
Definition bind {A B} (o : option (A * list token)) (k : A -> reads B) : option (B * list token) :=
  match o with Some (a, r) => k a r | None => None end.
Definition read_name : reads string := fun l =>
  match l with Word n :: r => if name n then Some (n, r) else None | _ => None end.
Definition read_punct (c : ascii) : reads unit := fun l =>
  match l with Punct d :: r => if Ascii.eqb c d then Some (tt, r) else None | _ => None end.
Definition try_punct (c : ascii) : reads bool := fun l =>
  match l with Punct d :: r => if Ascii.eqb c d then Some (true, r) else Some (false, l) | _ => Some (false, l) end.
Definition try_doc : reads (option string) := fun l =>
  match l with
  | Block raw :: r => Some (Some (block_value raw), r)
  | Text raw :: r => Some (Some raw, r)
  | _ => Some (None, l)
  end.
(** items one after the other up to [c], which is read *)
Fixpoint until {A} (fuel : nat) (c : ascii) (item : reads A) : reads (list A) := fun l =>
  match fuel with
  | O => None
  | S fuel =>
      bind (try_punct c l) (fun b l =>
      if b then Some ([], l) else bind (item l) (fun a l => bind (until fuel c item l) (fun r l => Some (a :: r, l))))
  end.
(** at least one *)
Definition some_until {A} (fuel : nat) (c : ascii) (item : reads A) : reads (list A) := fun l =>
  bind (until fuel c item l) (fun r l => match r with [] => None | _ => Some (r, l) end).
(** items after [c] each *)
Fixpoint each_after {A} (fuel : nat) (c : ascii) (item : reads A) : reads (list A) := fun l =>
  match fuel with
  | O => None
  | S fuel =>
      bind (try_punct c l) (fun b l =>
      if b then bind (item l) (fun a l => bind (each_after fuel c item l) (fun r l => Some (a :: r, l))) else Some ([], l))
  end.
(** items with [c] between them *)
Definition parted {A} (fuel : nat) (c : ascii) (item : reads A) : reads (list A) := fun l =>
  bind (item l) (fun a l => bind (each_after fuel c item l) (fun r l => Some (a :: r, l))).

(** Values: one word or string, or all up to the bracket that closes the first one *)
Definition opening (c : ascii) : bool := (Ascii.eqb c "[" || Ascii.eqb c "{")%bool.
Definition closing (c : ascii) : bool := (Ascii.eqb c "]" || Ascii.eqb c "}")%bool.
Fixpoint read_value_in (depth : nat) (l : list token) : option (list token * list token) :=
  match l with
  | [] => None
  | t :: r =>
      let more d := bind (read_value_in d r) (fun v l => Some (t :: v, l)) in
      match t with
      | Punct c =>
          if opening c then more (S depth)
          else if closing c then match depth with O => None | S O => Some ([t], r) | S d => more d end
          else if Ascii.eqb c ":" then match depth with O => None | _ => more depth end
          else None
      | _ => match depth with O => Some ([t], r) | _ => more depth end
      end
  end.
Definition read_value : reads (list token) := read_value_in 0.
Fixpoint read_type (fuel : nat) : reads ptype := fun l =>
  match fuel with
  | O => None
  | S fuel =>
      bind (try_punct "[" l) (fun b l =>
      bind (if b then bind (read_type fuel l) (fun t l => bind (read_punct "]" l) (fun _ l => Some (PList t, l)))
            else bind (read_name l) (fun n l => Some (PNamed n, l))) (fun base l =>
      bind (try_punct "!" l) (fun b l => Some (PType base (negb b), l))))
  end.
Definition read_arg : reads (string * list token) := fun l =>
  bind (read_name l) (fun n l => bind (read_punct ":" l) (fun _ l => bind (read_value l) (fun v l => Some ((n, v), l)))).
Definition read_dir (fuel : nat) : reads r_dir := fun l =>
  bind (read_name l) (fun n l =>
  bind (try_punct "(" l) (fun b l =>
  bind (if b then some_until fuel ")" read_arg l else Some ([], l)) (fun a l => Some ({| rd_name := n; rd_args := a |}, l)))).
Definition read_dirs (fuel : nat) : reads (list r_dir) := each_after fuel "@" (read_dir fuel).
(** 3.6.1: [Description? Name : Type DefaultValue? Directives?] *)
Definition read_input (fuel : nat) : reads r_input := fun l =>
  bind (try_doc l) (fun doc l =>
  bind (read_name l) (fun n l =>
  bind (read_punct ":" l) (fun _ l =>
  bind (read_type fuel l) (fun t l =>
  bind (try_punct "=" l) (fun b l =>
  bind (if b then bind (read_value l) (fun v l => Some (Some v, l)) else Some (None, l)) (fun dflt l =>
  bind (read_dirs fuel l) (fun ds l =>
  Some ({| ri_doc := doc; ri_name := n; ri_type := t; ri_default := dflt; ri_dirs := ds |}, l)))))))).
(** 3.6: [Description? Name ArgumentsDefinition? : Type Directives?] *)
Definition read_field (fuel : nat) : reads r_field := fun l =>
  bind (try_doc l) (fun doc l =>
  bind (read_name l) (fun n l =>
  bind (try_punct "(" l) (fun b l =>
  bind (if b then some_until fuel ")" (read_input fuel) l else Some ([], l)) (fun args l =>
  bind (read_punct ":" l) (fun _ l =>
  bind (read_type fuel l) (fun t l =>
  bind (read_dirs fuel l) (fun ds l =>
  Some ({| rf_doc := doc; rf_name := n; rf_args := args; rf_type := t; rf_dirs := ds |}, l)))))))).
(** 3.9: names, not [true], [false] or [null], and their directives (without descriptions) *)
Definition not_a_value (s : string) : bool := negb (existsb (String.eqb s) ["true"; "false"; "null"]).
Definition read_enum_value (fuel : nat) : reads (string * list r_dir) := fun l =>
  bind (read_name l) (fun n l => if not_a_value n then bind (read_dirs fuel l) (fun ds l => Some ((n, ds), l)) else None).
Definition read_implements (fuel : nat) : reads (list string) := fun l =>
  match l with
  | Word "implements" :: r => bind (try_punct "&" r) (fun _ r => parted fuel "&" read_name r)
  | _ => Some ([], l)
  end.
Definition read_block {A} (fuel : nat) (item : reads A) : reads (list A) := fun l =>
  bind (try_punct "{" l) (fun b l => if b then some_until fuel "}" item l else Some ([], l)).
Definition read_root : reads (string * string) := fun l =>
  bind (read_name l) (fun k l =>
  if existsb (String.eqb k) ["query"; "mutation"; "subscription"] then
    bind (read_punct ":" l) (fun _ l => bind (read_name l) (fun n l => Some ((k, n), l)))
  else None).
Definition read_def (fuel : nat) : reads r_def := fun l =>
  bind (try_doc l) (fun doc l =>
  match l with
  | Word "schema" :: l =>
      bind (read_dirs fuel l) (fun ds l => bind (read_punct "{" l) (fun _ l =>
      bind (some_until fuel "}" read_root l) (fun rs l => Some (RSchema ds rs, l))))
  | Word "scalar" :: l => bind (read_name l) (fun n l => bind (read_dirs fuel l) (fun ds l => Some (RType doc n ds RScalar, l)))
  | Word "type" :: l =>
      bind (read_name l) (fun n l => bind (read_implements fuel l) (fun is l => bind (read_dirs fuel l) (fun ds l =>
      bind (read_block fuel (read_field fuel) l) (fun fs l => Some (RType doc n ds (RObject is fs), l)))))
  | Word "interface" :: l =>
      bind (read_name l) (fun n l => bind (read_implements fuel l) (fun is l => bind (read_dirs fuel l) (fun ds l =>
      bind (read_block fuel (read_field fuel) l) (fun fs l => Some (RType doc n ds (RInterface is fs), l)))))
  | Word "union" :: l =>
      bind (read_name l) (fun n l => bind (read_dirs fuel l) (fun ds l => bind (try_punct "=" l) (fun b l =>
      bind (if b then bind (try_punct "|" l) (fun _ l => parted fuel "|" read_name l) else Some ([], l)) (fun ms l =>
      Some (RType doc n ds (RUnion ms), l)))))
  | Word "enum" :: l =>
      bind (read_name l) (fun n l => bind (read_dirs fuel l) (fun ds l =>
      bind (read_block fuel (read_enum_value fuel) l) (fun vs l => Some (RType doc n ds (REnum vs), l))))
  | Word "input" :: l =>
      bind (read_name l) (fun n l => bind (read_dirs fuel l) (fun ds l =>
      bind (read_block fuel (read_input fuel) l) (fun fs l => Some (RType doc n ds (RInput fs), l))))
  | _ => None
  end).
Fixpoint read_defs (fuel n : nat) (l : list token) : option (list r_def) :=
  match l, n with
  | [], _ => Some []
  | _, S n => match read_def fuel l with Some (d, l) => match read_defs fuel n l with Some r => Some (d :: r) | None => None end | None => None end
  | _, O => None
  end.
(** No list in a document is longer than the document, and no type is deeper. *)
Definition read (s : string) : option (list r_def) :=
  match tokens s with Some l => read_defs (S (List.length l)) (List.length l) l | None => None end.

(** * What is to be found in the text of a document *)
Notation Args := (list (string * string)).
(** the tokens of the text of a value *)
Definition value_text (v : string) : Prop := exists l, tokens v = Some l /\ read_value l = Some (l, []).
Definition value_tokens (v : string) : list token := match tokens v with Some l => l | None => [] end.
(** all directives, without the arguments that are null *)
Definition dir_told (d : dir Args) : r_dir :=
  {| rd_name := d_name d;
     rd_args := map (fun a => (fst a, value_tokens (snd a))) (filter (fun a => negb (String.eqb (snd a) "null")) (d_args d)) |}.
Definition dirs_told (l : list (dir Args)) : list r_dir := map dir_told l.
(** a field of an input *)
Definition input_told (i : input_value Args) : r_input :=
  {| ri_doc := iv_doc i; ri_name := iv_name i; ri_type := iv_type i; ri_default := option_map value_tokens (iv_default i);
     ri_dirs := dirs_told (iv_dirs i) |}.
(** an argument: without its documentation and its directives *)
Definition argument_told (i : input_value Args) : r_input :=
  {| ri_doc := None; ri_name := iv_name i; ri_type := iv_type i; ri_default := option_map value_tokens (iv_default i); ri_dirs := [] |}.
Definition field_told (f : field_def Args) : r_field :=
  {| rf_doc := fd_doc f; rf_name := fd_name f; rf_args := map argument_told (fd_args f); rf_type := fd_type f; rf_dirs := dirs_told (fd_dirs f) |}.
Definition type_told (t : type_def Args) : r_def :=
  match td_kind t with
  | KScalar => RType (td_doc t) (td_name t) [] RScalar
  | KObject is fs => RType (td_doc t) (td_name t) (dirs_told (td_dirs t)) (RObject is (map field_told fs))
  | KInterface is fs => RType None (td_name t) [] (RInterface is (map field_told fs))
  | KUnion ms => RType None (td_name t) (dirs_told (td_dirs t)) (RUnion ms)
  | KEnum vs => RType (td_doc t) (td_name t) (dirs_told (td_dirs t)) (REnum (map (fun v => (fst v, dirs_told (snd v))) vs))
  | KInput fs => RType (td_doc t) (td_name t) (dirs_told (td_dirs t)) (RInput (map input_told fs))
  end.
(** the schema, unless it has neither queries nor mutations *)
Definition schema_told (s : schema_def Args) : list r_def :=
  match sd_query s, sd_mutation s with
  | None, None => []
  | q, m =>
      let root k (o : option string) := match o with Some n => [(k, n)] | None => [] end in
      [RSchema (dirs_told (sd_dirs s)) (root "query" q ++ root "mutation" m ++ root "subscription" (sd_subscription s))]
  end.
(** the order: schema, scalars, inputs, interfaces, unions, enums, objects; the order of the document among each of them *)
Definition rank (k : kind Args) : nat :=
  match k with KScalar => 0 | KInput _ => 1 | KInterface _ _ => 2 | KUnion _ => 3 | KEnum _ => 4 | KObject _ _ => 5 end.
Definition types_told (doc : document Args) (n : nat) : list r_def :=
  flat_map (fun d => match d with DType t => if Nat.eqb (rank (td_kind t)) n then [type_told t] else [] | _ => [] end) doc.
Definition schemas_told (doc : document Args) : list r_def :=
  flat_map (fun d => match d with DSchema s => schema_told s | _ => [] end) doc.
Definition types_of (doc : document Args) : list (type_def Args) := flat_map (fun d => match d with DType t => [t] | _ => [] end) doc.
Definition told (doc : document Args) : list r_def := schemas_told doc ++ flat_map (types_told doc) [0; 1; 2; 3; 4; 5].

(** * Documents whose texts can be read *)
Definition is_name (s : string) : Prop := name s = true.
(** Documentation of one line: no ends of lines, quotes or backslashes, and no white space at its ends *)
Definition in_line (c : ascii) : bool := negb (line_end c || is_quote c || backslash c).
Fixpoint last_char (c : ascii) (s : string) : ascii := match s with "" => c | String d t => last_char d t end.
Definition one_line (d : string) : Prop :=
  match d with "" => False | String c t => all_chars in_line d = true /\ blank_char c = false /\ blank_char (last_char c t) = false end.
Definition doc_ok (o : option string) : Prop := match o with Some d => one_line d | None => True end.
(** of no more than 80 characters *)
Definition short_doc (o : option string) : Prop := match o with Some d => one_line d /\ String.length d <= 80 | None => True end.
Fixpoint type_ok (t : ptype) : Prop := match t with PType b _ => base_ok b end
with base_ok (b : pbase) : Prop := match b with PNamed n => is_name n | PList t => type_ok t end.
Definition dir_ok (d : dir Args) : Prop := is_name (d_name d) /\ Forall (fun a => is_name (fst a) /\ value_text (snd a)) (d_args d).
Definition dirs_ok (l : list (dir Args)) : Prop := Forall dir_ok l.
Definition default_ok (o : option string) : Prop := match o with Some v => value_text v | None => True end.
Definition argument_ok (i : input_value Args) : Prop := is_name (iv_name i) /\ type_ok (iv_type i) /\ default_ok (iv_default i).
(** not with both a default and directives *)
Definition input_ok (i : input_value Args) : Prop :=
  argument_ok i /\ short_doc (iv_doc i) /\ dirs_ok (iv_dirs i) /\ (iv_default i = None \/ iv_dirs i = []).
Definition field_ok (f : field_def Args) : Prop :=
  doc_ok (fd_doc f) /\ is_name (fd_name f) /\ Forall argument_ok (fd_args f) /\ type_ok (fd_type f) /\ dirs_ok (fd_dirs f).
Definition some_ok {A} (p : A -> Prop) (l : list A) : Prop := l <> [] /\ Forall p l.
Definition type_def_ok (t : type_def Args) : Prop :=
  is_name (td_name t) /\
  match td_kind t with
  | KScalar => short_doc (td_doc t)
  | KObject is fs => doc_ok (td_doc t) /\ dirs_ok (td_dirs t) /\ Forall is_name is /\ some_ok field_ok fs
  | KInterface is fs => Forall is_name is /\ some_ok field_ok fs
  | KUnion ms => dirs_ok (td_dirs t) /\ some_ok is_name ms
  | KEnum vs => doc_ok (td_doc t) /\ dirs_ok (td_dirs t) /\
      some_ok (fun v => is_name (fst v) /\ not_a_value (fst v) = true /\ dirs_ok (snd v)) vs
  | KInput fs => short_doc (td_doc t) /\ dirs_ok (td_dirs t) /\ some_ok input_ok fs
  end.
Definition root_ok (o : option string) : Prop := match o with Some n => is_name n | None => True end.
Definition def_ok (d : definition Args) : Prop :=
  match d with
  | DSchema s => dirs_ok (sd_dirs s) /\ root_ok (sd_query s) /\ root_ok (sd_mutation s) /\ root_ok (sd_subscription s)
  | DType t => type_def_ok t
  | DDirective => False
  end.
Definition readable (doc : document Args) : Prop := Forall def_ok doc.
