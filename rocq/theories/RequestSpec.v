(** Vocabulary for upstream requests (C30, C31, C47, C48). *)
From Coq Require Import String Ascii NArith Bool List.
From Verif Require Import Base JsonModel CtxModel CtxSpec MustacheModel HeadersModel UrlModel RequestModel GqlModel.
Import ListNotations.
Open Scope list_scope.
Open Scope string_scope.

(** * Query strings *)

(** [c] does not occur in the text. *)
Fixpoint lacks (c : ascii) (s : string) : Prop :=
  match s with EmptyString => True | String d t => d <> c /\ lacks c t end.

(** Texts whose characters mean nothing special in a query string and are not dropped
    from it. *)
Definition tab_char : ascii := ascii_of_N 9.
Definition lf_char : ascii := ascii_of_N 10.
Definition cr_char : ascii := ascii_of_N 13.
Definition safe_text (s : string) : Prop :=
  lacks "&" s /\ lacks "%" s /\ lacks "+" s /\ lacks tab_char s /\ lacks lf_char s /\ lacks cr_char s.
Definition safe_key (s : string) : Prop := s <> "" /\ lacks "=" s /\ safe_text s.

(** The characters that may occur in the query of a URL: visible ASCII other than quotes,
    angle brackets and the number sign. *)
Definition query_char (c : ascii) : bool :=
  let n := N_of_ascii c in
  (N.leb 33 n && N.leb n 126 && negb (existsb (Ascii.eqb c) [ascii_of_N 34; ascii_of_N 39; "#"; "<"; ">"]%char))%bool.

(** The text of a scalar; nothing else has one. *)
Definition plain_text (rx : req_ext) (v : value) : option string :=
  match v with
  | VStr s | VEnum s => Some s
  | VNum n => Some (x_json_text rx (VNum n))
  | VBool true => Some "true"
  | VBool false => Some "false"
  | VNull | VList _ | VObj _ => None
  end.
Definition or_empty (o : option string) : string := match o with Some t => t | None => "" end.

(** The texts of the elements of an argument, lists inside lists being spelled out; what
    has no text (null, objects, the empty list) counts as the empty text. *)
Fixpoint element_texts (rx : req_ext) (v : value) : list string :=
  match v with
  | VList ((_ :: _) as l) => flat_map (element_texts rx) l
  | _ => [or_empty (plain_text rx v)]
  end.
(** The texts of the scalars among the elements of a list. *)
Definition scalar_texts (rx : req_ext) (l : list value) : list string :=
  flat_map (fun x => match plain_text rx x with Some t => [t] | None => [] end) l.

(** What a configured parameter is given: the first of its parts that stands for
    something, a JSON value or a text. *)
Inductive given (e : evaluation) : mustache -> option (value + string) -> Prop :=
| given_nothing : given e [] None
| given_literal t rest : given e (Literal t :: rest) (Some (inl (VStr t)))
| given_value p rest v : denotes (e_ctx e) p v -> given e (Expression p :: rest) (Some (inl v))
| given_text p rest s : text_of (e_ext e) p s -> given e (Expression p :: rest) (Some (inr s))
| given_next p rest o :
    (forall v, ~ denotes (e_ctx e) p v) -> (forall s, ~ text_of (e_ext e) p s) -> given e rest o ->
    given e (Expression p :: rest) o.

(** The pairs it should contribute. *)
Definition pairs_of (rx : req_ext) (enc : encoder) (q : query) (o : option (value + string)) : list (string * string) :=
  match o with
  | None => if qy_skip_empty q then [] else [(qy_key q, "")]
  | Some (inr s) => [(qy_key q, s)]
  | Some (inl v) =>
      match enc with
      | RepeatedKey => map (pair (qy_key q)) (element_texts rx v)
      | CommaSeparated =>
          match v with
          | VList ((_ :: _) as l) => [(qy_key q, join "," (scalar_texts rx l))]
          | _ => [(qy_key q, or_empty (plain_text rx v))]
          end
      end
  end.
(** All texts it consists of are harmless. *)
Definition safe_given (rx : req_ext) (enc : encoder) (o : option (value + string)) : Prop :=
  match o with
  | None => True
  | Some (inr s) => safe_text s
  | Some (inl v) =>
      match enc, v with
      | CommaSeparated, VList ((_ :: _) as l) => Forall safe_text (scalar_texts rx l)
      | _, _ => Forall safe_text (element_texts rx v)
      end
  end.

(** * Keys *)
Definition injective {A B} (f : A -> B) : Prop := forall x y, f x = f y -> x = y.

(** The header the upstream sees under a name. *)
Definition sent_header (r : result request req_error) (n : string) : option string :=
  match r with Ok q => h_get n (q_headers q) | Err _ => None end.

(** * JSON texts *)

(** A character that stands for itself inside a JSON string. *)
Definition json_plain (c : ascii) : bool :=
  let n := N_of_ascii c in (N.leb 32 n && negb (N.eqb n 34) && negb (N.eqb n 92))%bool.
Definition json_escapes : list (ascii * ascii) :=
  [(ascii_of_N 34, ascii_of_N 34); ("\", "\"); ("/", "/"); ("b", ascii_of_N 8); ("f", ascii_of_N 12);
   ("n", ascii_of_N 10); ("r", ascii_of_N 13); ("t", ascii_of_N 9)]%char.
(** What stands between the quotes of a JSON string, and the text it denotes.  Of the
    four-digit escapes only those for ASCII are listed. *)
Inductive json_chars : string -> string -> Prop :=
| json_nil : json_chars "" ""
| json_char c s t : json_plain c = true -> json_chars s t -> json_chars (String c s) (String c t)
| json_escape c d s t : In (c, d) json_escapes -> json_chars s t ->
    json_chars (String "\" (String c s)) (String d t)
| json_unicode a b x y s t : hex_value a = Some x -> hex_value b = Some y -> N.ltb x 8 = true -> json_chars s t ->
    json_chars (String "\" (String "u" (String "0" (String "0" (String a (String b s)))))) (String (ascii_of_N (16 * x + y)) t).

(** The body of a GraphQL request over HTTP that carries the given operation. *)
Definition carries (body operation : string) : Prop :=
  exists content, body = "{ ""query"": """ ++ content ++ """ }" /\ json_chars content operation.

(** Every character satisfies [p]. *)
Definition every (p : ascii -> bool) (s : string) : Prop := all_chars p s = true.
(** Printable ASCII without the apostrophe, tabs and line ends. *)
Definition ordinary (c : ascii) : bool :=
  let n := N_of_ascii c in
  ((N.leb 32 n && N.leb n 126 && negb (N.eqb n 39)) || N.eqb n 9 || N.eqb n 10 || N.eqb n 13)%bool.

(** All texts of a selection are made of such characters; names need no escape. *)
Inductive ordinary_field : gfield -> Prop :=
| ordinary_field_intro f :
    every ordinary (f_directives f) ->
    (forall n v, In (n, Some v) (f_args f) -> every ordinary n /\ every ordinary v) ->
    (forall g, In g (f_selection f) -> ordinary_field g) ->
    ordinary_field f.
Inductive plain_related : related -> Prop :=
| plain_related_intro m :
    (forall k n r, In (k, (n, r)) m -> every json_plain n /\ plain_related r) -> plain_related (Related m).

(** * Selections *)

(** The field was not asked for inside a fragment for another type. *)
Definition meant_for (T : string) (g : gfield) : bool :=
  match f_condition g with None => true | Some U => String.eqb U T end.
(** A selection set, of the given texts. *)
Definition selection_text (l : list string) : option string :=
  match l with [] => None | _ :: _ => Some ("{ " ++ join " " l ++ " }") end.

(** The client's own selection, as a text: names, arguments, directives and selections in
    the order they were written, for the fields that apply to the type. *)
Fixpoint client_text (f : gfield) : string :=
  f_name f
  ++ match flat_map (fun a => match snd a with Some v => [fst a ++ ": " ++ v] | None => [] end) (f_args f) with
     | [] => ""
     | l => "(" ++ join "," l ++ ")"
     end
  ++ (if String.eqb (f_directives f) "" then "" else " " ++ f_directives f)
  ++ match flat_map (fun g => if meant_for (f_type f) g then [client_text g] else []) (f_selection f) with
     | [] => ""
     | l => " { " ++ join " " l ++ " }"
     end.

(** No aliases, and every applicable field is known to be served by the upstream under its
    own name. *)
Inductive covered : related -> gfield -> Prop :=
| covered_intro rel f :
    f_output f = f_name f ->
    (forall g, In g (f_selection f) -> meant_for (f_type f) g = true ->
       exists r, related_get rel (f_name g) = Some (f_name g, r) /\ covered r g) ->
    covered rel f.

(** An operation that asks one field: arguments without a value are left out. *)
Definition asked (kind name : string) (args : list (string * string)) (directives selection : string) : string :=
  kind ++ " { " ++ name
  ++ match filter (fun a => negb (String.eqb (snd a) "")) args with
     | [] => ""
     | given => "(" ++ join ", " (map (fun a => fst a ++ ": " ++ snd a) given) ++ ")"
     end
  ++ match directives with EmptyString => "" | _ => " " ++ directives end
  ++ " " ++ selection ++ " }".

(** [offers c T k n]: a client that asks for the field [k] of the type [T], or of a member
    of the union [T], asks for what the upstream calls [n]. *)
Inductive offers (c : gconfig) : string -> string -> string -> Prop :=
| offers_field T fields n f k :
    aget T (g_types c) = Some fields -> In (n, f) fields -> cf_resolver f = false ->
    (cf_modify f = None /\ k = n \/ cf_modify f = Some (Some k)) -> offers c T k n
| offers_member T members U k n :
    aget T (g_types c) = None -> aget T (g_unions c) = Some members -> In U members -> offers c U k n -> offers c T k n.

(** Types of a configuration.  [unfolds c T l]: following the fields from [T], each served
    by the upstream under its own name, ends after finitely many steps, and [l] lists the
    object types met on the way, each as often as it is met. *)
Inductive unfolds (c : gconfig) : string -> list string -> Prop :=
| unfolds_scalar T : aget T (g_types c) = None -> aget T (g_unions c) = None -> unfolds c T []
| unfolds_type T fields ls :
    aget T (g_types c) = Some fields -> NoDup (map fst fields) ->
    (forall n f, In (n, f) fields -> cf_resolver f = false /\ cf_modify f = None) ->
    Forall2 (fun nf l => unfolds c (cf_type (snd nf)) l) fields ls ->
    unfolds c T (T :: concat ls).

(** A selection without aliases that only names fields of the type. *)
Inductive selects (c : gconfig) : gfield -> Prop :=
| selects_intro f :
    f_output f = f_name f ->
    (forall g, In g (f_selection f) -> meant_for (f_type f) g = true ->
       exists fields k, aget (f_type f) (g_types c) = Some fields /\ aget (f_name g) fields = Some k /\
                        cf_type k = f_type g /\ selects c g) ->
    selects c f.
