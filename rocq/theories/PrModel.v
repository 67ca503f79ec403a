(** Documents as texts: src/core/document.rs.  Characters are bytes. *)
From Coq Require Import String Ascii ZArith NArith Bool Arith List.
From Verif Require Import Base TypeModel DocModel OpGenModel.
Import ListNotations.
Open Scope string_scope.
Open Scope list_scope.

(** The values of arguments and defaults are kept as their texts ([Display] of async_graphql_value). *)
Notation Args := (list (string * string)).
Notation directive := (dir Args).
Definition newline : string := String (ascii_of_nat 10) "".
Definition quote : string := String (ascii_of_nat 34) "".
Definition quotes : string := (quote ++ quote ++ quote)%string.
Local Infix "+++" := append (at level 60, right associativity).

(** document.rs:11-61, the loops: [room] bytes, then on to the first white space.  Of ASCII texts the graphemes are the characters,
    with the exception of CR LF. *)
Fixpoint next_line (room : nat) (s : string) : string * string :=
  match s with
  | EmptyString => ("", "")
  | String c t =>
      match room with
      | S room => let (a, b) := next_line room t in (String c a, b)
      | O => if is_white c then (String c "", t) else let (a, b) := next_line O t in (String c a, b)
      end
  end.
(** document.rs:24-60 as an iterator; a line has at least one character, so [length s] lines are enough *)
Fixpoint broken_lines (fuel room : nat) (s : string) : list string :=
  match fuel, s with
  | S fuel, String _ _ => let (a, b) := next_line room s in a :: broken_lines fuel room b
  | _, _ => []
  end.
Fixpoint without_newlines (s : string) : string :=
  match s with
  | EmptyString => ""
  | String c t => if Ascii.eqb c (ascii_of_nat 10) then without_newlines t else String c (without_newlines t)
  end.
Fixpoint spaces (n : nat) : string := match n with O => "" | S n => String " " (spaces n) end.
(** document.rs:63-81 *)
Definition get_formatted_docs (docs : option string) (indent : nat) : string :=
  match docs with
  | Some docs =>
      let docs := without_newlines docs in
      spaces indent +++ quotes
      +++ String.concat "" (map (fun line => newline +++ spaces indent +++ line) (broken_lines (String.length docs) 80 docs))
      +++ newline +++ spaces indent +++ quotes +++ newline
  | None => ""
  end.

(** The texts of types: [Display] of async_graphql_parser's [Type] and [BaseType] *)
Fixpoint type_text (t : ptype) : string := match t with PType b nullable => base_text b +++ (if nullable then "" else "!") end
with base_text (b : pbase) : string := match b with PNamed n => n | PList t => "[" +++ type_text t +++ "]" end.

(** document.rs:373-393: arguments that are null are left out *)
Definition told_args (d : directive) : Args := filter (fun a => negb (String.eqb (snd a) "null")) (d_args d).
(** document.rs:311-329 *)
Definition print_directive (d : directive) : string :=
  let args := String.concat ", " (map (fun a => fst a +++ ": " +++ snd a) (told_args d)) in
  if String.eqb args "" then "@" +++ d_name d else "@" +++ d_name d +++ "(" +++ args +++ ")".
(** document.rs:83-91 *)
Definition print_directives (ds : list directive) : string := String.concat " " (map print_directive ds).
(** document.rs:93-101 *)
Definition print_pos_directives (ds : list directive) : string :=
  let output := print_directives ds in if String.eqb output "" then output else output +++ " ".

(** document.rs:103-126 *)
Definition print_schema (s : schema_def Args) : string :=
  let root k (o : option string) := match o with Some n => "  " +++ k +++ ": " +++ n +++ newline | None => "" end in
  match sd_mutation s, sd_query s with
  | None, None => ""
  | _, _ =>
      "schema " +++ print_pos_directives (sd_dirs s) +++ "{" +++ newline +++ root "query" (sd_query s) +++ root "mutation" (sd_mutation s)
      +++ root "subscription" (sd_subscription s) +++ "}" +++ newline
  end.

(** document.rs:288-293 *)
Definition print_default_value (d : option string) : string := match d with Some v => " = " +++ v | None => "" end.
(** document.rs:295-309 *)
Definition print_input_value (f : input_value Args) : string :=
  get_formatted_docs (iv_doc f) 2 +++ "  " +++ iv_name f +++ ": " +++ type_text (iv_type f) +++ print_pos_directives (iv_dirs f)
  +++ print_default_value (iv_default f).
(** document.rs:260-270: the same text as that of the type *)
Definition print_argument (a : input_value Args) : string :=
  iv_name a +++ ": " +++ type_text (iv_type a) +++ print_default_value (iv_default a).
(** document.rs:146, 279: the text of a description of a type or field *)
Definition plain_docs (d : option string) : string :=
  match d with Some d => "  " +++ quotes +++ newline +++ "  " +++ d +++ newline +++ "  " +++ quotes +++ newline | None => "" end.
(** document.rs:253-286 *)
Definition print_field (f : field_def Args) : string :=
  let args := match fd_args f with [] => "" | l => "(" +++ String.concat ", " (map print_argument l) +++ ")" end in
  plain_docs (fd_doc f) +++ trim_end ("  " +++ fd_name f +++ args +++ ": " +++ type_text (fd_type f) +++ " " +++ print_pos_directives (fd_dirs f)).
(** document.rs:233-251; DocModel has no documentation of values *)
Definition print_enum_value (v : string * list directive) : string :=
  let ds := print_pos_directives (snd v) in if String.eqb ds "" then "  " +++ fst v else "  " +++ fst v +++ " " +++ ds.
Definition print_implements (l : list string) : string := match l with [] => "" | _ => "implements " +++ String.concat " & " l +++ " " end.
(** document.rs:128-231 *)
Definition print_type_def (t : type_def Args) : string :=
  match td_kind t with
  | KScalar => get_formatted_docs (td_doc t) 0 +++ "scalar " +++ td_name t +++ newline
  | KUnion members => "union " +++ td_name t +++ print_pos_directives (td_dirs t) +++ " = " +++ String.concat " | " members +++ newline
  | KInput fields =>
      get_formatted_docs (td_doc t) 0 +++ "input " +++ td_name t +++ " " +++ print_pos_directives (td_dirs t) +++ "{" +++ newline
      +++ String.concat newline (map print_input_value fields) +++ newline +++ "}" +++ newline
  | KInterface implements fields =>
      "interface " +++ td_name t +++ " " +++ print_implements implements +++ "{" +++ newline
      +++ String.concat newline (map print_field fields) +++ newline +++ "}" +++ newline
  | KObject implements fields =>
      plain_docs (td_doc t) +++ "type " +++ td_name t +++ " " +++ print_implements implements +++ print_pos_directives (td_dirs t) +++ "{" +++ newline
      +++ String.concat newline (map print_field fields) +++ newline +++ "}" +++ newline
  | KEnum values =>
      match td_doc t with Some d => quotes +++ newline +++ d +++ newline +++ quotes +++ newline | None => "" end
      +++ "enum " +++ td_name t +++ " " +++ print_pos_directives (td_dirs t) +++ "{" +++ newline
      +++ String.concat newline (map print_enum_value values) +++ newline +++ "}" +++ newline
  end.

(** [str::trim_end_matches('\n')] *)
Fixpoint trim_newlines (s : string) : string :=
  match s with
  | EmptyString => ""
  | String c t => match trim_newlines t with "" => if Ascii.eqb c (ascii_of_nat 10) then "" else String c "" | r => String c r end
  end.
(** document.rs:409-455.  [definitions]: the texts of the definitions of directives (331-370), which are not part of the documents made
    from configurations and blueprints *)
Definition print (definition_text : string) (doc : document Args) : string :=
  let of_kind (p : kind Args -> bool) := flat_map (fun d => match d with DType t => if p (td_kind t) then [print_type_def t] else [] | _ => [] end) doc in
  trim_newlines (String.concat newline
    (flat_map (fun d => match d with DSchema s => [print_schema s] | _ => [] end) doc
     ++ flat_map (fun d => match d with DDirective => [definition_text] | _ => [] end) doc
     ++ of_kind (fun k => match k with KScalar => true | _ => false end)
     ++ of_kind (fun k => match k with KInput _ => true | _ => false end)
     ++ of_kind (fun k => match k with KInterface _ _ => true | _ => false end)
     ++ of_kind (fun k => match k with KUnion _ => true | _ => false end)
     ++ of_kind (fun k => match k with KEnum _ => true | _ => false end)
     ++ of_kind (fun k => match k with KObject _ _ => true | _ => false end))).
