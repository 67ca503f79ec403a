(** [tailcall init]: src/cli/tc/init.rs, src/cli/runtime/mod.rs, src/cli/runtime/file.rs and the merge of YAML of src/core/merge_right.rs. *)
From Coq Require Import String Ascii Bool List.
From Verif Require Import Base.
Import ListNotations.
Open Scope string_scope.
Open Scope list_scope.

(** [serde_yaml_ng::Value] (external crate); keys of mappings are texts, numbers are their texts *)
Inductive yaml : Type :=
| YNull
| YBool (b : bool)
| YNumber (n : string)
| YString (s : string)
| YSequence (l : list yaml)
| YMapping (m : list (string * yaml))
| YTagged (tag : string) (v : yaml).
(** [Mapping::remove]: the last entry takes the place of the one that is removed *)
Definition swap_remove (k : string) (m : list (string * yaml)) : list (string * yaml) :=
  match rev m with
  | [] => []
  | final :: front =>
      if String.eqb (fst final) k then rev front
      else map (fun kv => if String.eqb (fst kv) k then final else kv) (rev front)
  end.
(** merge_right.rs:131-176 *)
Fixpoint merge_yaml (a b : yaml) {struct b} : yaml :=
  match a with
  | YNull | YBool _ | YNumber _ | YString _ => b
  | YSequence l => match b with YSequence r => YSequence (l ++ r) | _ => YSequence (l ++ [b]) end
  | YMapping l =>
      match b with
      | YMapping r =>
          YMapping ((fix each (r l : list (string * yaml)) : list (string * yaml) :=
            match r with
            | [] => l
            | (k, v) :: r =>
                each r (match aget k l with
                        | Some old => swap_remove k l ++ [(k, merge_yaml old v)]
                        | None => l ++ [(k, v)]
                        end)
            end) r l)
      | YSequence r => YSequence (r ++ [YMapping l])
      | _ => b
      end
  | YTagged t v => match b with YTagged t' v' => if String.eqb t t' then YTagged t (merge_yaml v v') else b | _ => b end
  end.
(** init.rs:57-62 *)
Definition default_graphqlrc : yaml := YMapping [("schema", YSequence [YString "./.tailcallrc.graphql"; YString "./*.graphql"])].

(** A file: a text, or something that cannot be read as one *)
Inductive file : Type := Text (s : string) | Unreadable.
(** What a prompt gives; [Cancel] is an error, as of ctrl-c *)
Inductive answer : Type := Yes | No | Cancel.
(** What becomes of a write: it cannot be begun; it stops after so many characters; or it is done, having been seen with so many *)
Inductive write_outcome : Type := NotCreated | Torn (n : nat) | Written (n : nat).
Inductive source : Type := Json | Yml.
(** The folder and its files, what the user agreed to overwrite, what is to come, and all that could have been seen on the disk so far, the latest first *)
Record seen := { v_folder : bool; v_files : list (string * file); v_agreed : list string }.
Record state := { s_now : seen; s_past : list seen; s_answers : list answer; s_writes : list write_outcome }.
Definition show (v : seen) (s : state) : state := {| s_now := v; s_past := s_now s :: s_past s; s_answers := s_answers s; s_writes := s_writes s |}.
Definition with_file (p : string) (f : file) (v : seen) : seen := {| v_folder := v_folder v; v_files := aset p f (v_files v); v_agreed := v_agreed v |}.

(** A prompt of the crate inquire; without an answer it is aborted *)
Definition prompt (s : state) : answer * state :=
  match s_answers s with
  | [] => (Cancel, s)
  | a :: rest => (a, {| s_now := s_now s; s_past := s_past s; s_answers := rest; s_writes := s_writes s |})
  end.
Definition next_write (s : state) : write_outcome * state :=
  match s_writes s with
  | [] => (NotCreated, s)
  | o :: rest => (o, {| s_now := s_now s; s_past := s_past s; s_answers := s_answers s; s_writes := rest |})
  end.
(** file.rs:21-25: the file is created empty and then written *)
Definition write (p content : string) (s : state) : bool * state :=
  let (o, s) := next_write s in
  if negb (v_folder (s_now s)) then (false, s)
  else match o with
       | NotCreated => (false, s)
       | Torn n => let s := show (with_file p (Text "") (s_now s)) s in (false, show (with_file p (Text (substring 0 n content)) (s_now s)) s)
       | Written n =>
           let s := show (with_file p (Text "") (s_now s)) s in
           let s := show (with_file p (Text (substring 0 n content)) (s_now s)) s in
           (true, show (with_file p (Text content) (s_now s)) s)
       end.
(** file.rs:14-19 *)
Definition read (p : string) (s : state) : option string :=
  match aget p (v_files (s_now s)) with Some (Text t) => Some t | _ => None end.
(** runtime/mod.rs:88-108 *)
Definition confirm_and_write (p content : string) (s : state) : bool * state :=
  if amem p (v_files (s_now s)) then
    match prompt s with
    | (Yes, s) => write p content (show {| v_folder := v_folder (s_now s); v_files := v_files (s_now s); v_agreed := p :: v_agreed (s_now s) |} s)
    | (No, s) => (true, s)
    | (Cancel, s) => (false, s)
    end
  else write p content s.
(** runtime/mod.rs:110-129; [can_create]: the folder can be created *)
Definition create_directory (can_create : bool) (s : state) : bool * state :=
  if v_folder (s_now s) then (true, s)
  else match prompt s with
       | (Yes, s) => if can_create then (true, show {| v_folder := true; v_files := v_files (s_now s); v_agreed := v_agreed (s_now s) |} s) else (false, s)
       | (No, s) => (true, s)
       | (Cancel, s) => (false, s)
       end.
Definition next (x : bool * state) (f : state -> bool * state) : bool * state := let (ok, s) := x in if ok then f s else (false, s).

Section Init.
  (** generated/.tailcallrc.graphql and .tailcallrc.schema.json; reading and writing YAML (external crate); the texts of main_config and runtime_config (init.rs:90-118) *)
  Variables rc rc_schema : string.
  Variable parse_yaml : string -> option yaml.
  Variable print_yaml : yaml -> string.
  Variable main_text : source -> string.
  Variable main_schema : string.

  (** init.rs:64-86: without a text the file is written unasked *)
  Definition confirm_and_write_yml (s : state) : bool * state :=
    match read ".graphqlrc.yml" s with
    | Some t =>
        match parse_yaml t with
        | Some y => confirm_and_write ".graphqlrc.yml" (print_yaml (merge_yaml y default_graphqlrc)) s
        | None => (false, s)
        end
    | None => write ".graphqlrc.yml" (print_yaml default_graphqlrc) s
    end.
  (** config/source.rs:53-59 *)
  Definition main_name (src : source) : string := match src with Json => "main.json" | Yml => "main.yml" end.
  (** init.rs:17-54 and 120-154; [choice] is the answer to the prompt for a format, [None] if it is aborted. Paths are those within the folder. *)
  Definition init (can_create : bool) (choice : option source) (s : state) : bool * state :=
    next (create_directory can_create s) (fun s =>
    match choice with
    | None => (false, s)
    | Some src =>
        next (confirm_and_write ".tailcallrc.graphql" rc s) (fun s =>
        next (confirm_and_write_yml s) (fun s =>
        next (confirm_and_write ".tailcallrc.schema.json" rc_schema s) (fun s =>
        next (confirm_and_write (main_name src) (main_text src) s) (fun s =>
        confirm_and_write "main.graphql" main_schema s))))
    end).
End Init.
