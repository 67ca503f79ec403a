(** Vocabulary for C48: what a client asks for, and what is asked of the upstream. *)
From Coq Require Import String Ascii ZArith NArith Bool List.
From Verif Require Import Base JsonModel TypeModel MustacheSpec RequestSpec GqlModel IrModel BuilderModel UpstreamModel.
Import ListNotations.
Open Scope list_scope.
Open Scope string_scope.

(** * GraphQL texts *)

(** One step of a path through a selection: inside a fragment on a type or not, the name of
    the field, its arguments and its directives. *)
Record step : Type := {
  s_on : option string;
  s_called : string;
  s_given : list (string * string);
  s_marked : list (string * list (string * string)) }.

(** A selection as it is written in a query. *)
Inductive ask : Type :=
| AskField (name : string) (args : list (string * string)) (directives : list (string * list (string * string)))
           (sel : list ask)
| AskOn (type : string) (sel : list ask).

(** Texts put one after the other. *)
Fixpoint between (sep : string) (l : list string) : string :=
  match l with
  | [] => ""
  | [s] => s
  | s :: rest => s ++ sep ++ between sep rest
  end.
Definition args_text (sep : string) (args : list (string * string)) : string :=
  match args with
  | [] => ""
  | _ => "(" ++ between sep (map (fun a => fst a ++ ": " ++ snd a) args) ++ ")"
  end.
Fixpoint ask_text (a : ask) : string :=
  match a with
  | AskField n args ds sel =>
      n ++ args_text "," args
      ++ match ds with [] => "" | _ => " " ++ between " " (map (fun d => "@" ++ fst d ++ args_text ", " (snd d)) ds) end
      ++ match sel with [] => "" | _ => " { " ++ between " " (map ask_text sel) ++ " }" end
  | AskOn T sel => "... on " ++ T ++ " { " ++ between " " (map ask_text sel) ++ " }"
  end.
Definition asks_text (l : list ask) : string := "{ " ++ between " " (map ask_text l) ++ " }".

(** The paths a selection asks for. *)
Inductive Asked : list ask -> list step -> Prop :=
| asked_field l n args ds sel : In (AskField n args ds sel) l ->
    Asked l [{| s_on := None; s_called := n; s_given := args; s_marked := ds |}]
| asked_below l n args ds sel p : In (AskField n args ds sel) l -> Asked sel p ->
    Asked l ({| s_on := None; s_called := n; s_given := args; s_marked := ds |} :: p)
| asked_on l T sel n args ds p : In (AskOn T sel) l ->
    Asked sel ({| s_on := None; s_called := n; s_given := args; s_marked := ds |} :: p) ->
    Asked l ({| s_on := Some T; s_called := n; s_given := args; s_marked := ds |} :: p).

(** * What a planned selection wants *)
Section Wants.
  Context {O : Type}.
  Notation field := (bfield (ir (call O))).
  Variable number_text : number -> string.
  Variable quoted : string -> string.
  Variable interfaces : list string.
  Variable vars : list (string * value).

  (** How a value is written in a query. *)
  Fixpoint written_value (v : qvalue) : string :=
    match v with
    | QVar x => "$" ++ x
    | QNull => "null"
    | QBool true => "true"
    | QBool false => "false"
    | QNum n => number_text n
    | QStr s => quoted s
    | QEnum s => s
    | QList l => "[" ++ between ", " (map written_value l) ++ "]"
    | QObj m => "{" ++ between ", " (map (fun kv => fst kv ++ ": " ++ written_value (snd kv)) m) ++ "}"
    end.
  Fixpoint constant (v : value) : qvalue :=
    match v with
    | VNull => QNull
    | VBool b => QBool b
    | VNum n => QNum n
    | VStr s => QStr s
    | VEnum s => QEnum s
    | VList l => QList (map constant l)
    | VObj m => QObj (map (fun kv => (fst kv, constant (snd kv))) m)
    end.

  (** The upstream serves the field, under the given name: nothing else resolves it. *)
  Inductive served (f : field) : string -> Prop :=
  | served_plain : b_ir f = None -> served f (b_name f)
  | served_renamed n rest : b_ir f = Some (IContextPath (n :: rest)) -> served f n.
  (** The field has a resolver of its own: a call or a constant. *)
  Inductive resolved_here (f : field) : Prop :=
  | resolved_by_call c : b_ir f = Some (IIO c) -> resolved_here f
  | resolved_by_constant d : b_ir f = Some (IDynamic d) -> resolved_here f.

  Definition interface_typed (f : field) : Prop := In (type_name (b_type f)) interfaces.

  (** What an argument of a directive stands for; [null] is the same as leaving it out. *)
  Definition stands_for (v : qvalue) : option string :=
    match v with
    | QNull => None
    | QVar x => match aget x vars with Some w => Some (written_value (constant w)) | None => Some "" end
    | v => Some (written_value v)
    end.
  Definition present {A} (l : list (string * option A)) : list (string * A) :=
    flat_map (fun a => match snd a with Some v => [(fst a, v)] | None => [] end) l.

  (** The step for a field; [abstract]: the object it belongs to may be of several types, so
      the fragment matters. *)
  Definition step_of (abstract : bool) (f : field) (n : string) : step :=
    {| s_on := if abstract then b_fragment f else None;
       s_called := n;
       s_given := present (map (fun a => (a_name a, option_map written_value (a_value a))) (b_args f));
       s_marked := map (fun d => (fst d, present (map (fun a => (fst a, stands_for (snd a))) (snd d)))) (b_directives f) |}.
  Definition typename_step : step := {| s_on := None; s_called := "__typename"; s_given := []; s_marked := [] |}.

  (** The paths that have to be asked for: those of the fields the upstream serves, and
      [__typename] for objects known by an interface, unless the client asked for it. *)
  Inductive Wants : bool -> list field -> list step -> Prop :=
  | wants_field abstract l f n : In f l -> served f n -> Wants abstract l [step_of abstract f n]
  | wants_below abstract l f n b p : In f l -> served f n -> (b = true <-> interface_typed f) ->
      Wants b (b_sel f) p -> Wants abstract l (step_of abstract f n :: p)
  | wants_typename l f n : In f l -> served f n ->
      (forall g, In g l -> served g "__typename" -> b_fragment g <> None) ->
      Wants true l [typename_step].

  (** Texts that can be put into a template and into a JSON text: printable, no apostrophe,
      no two opening braces one after the other and none at the end. *)
  Definition fit (s : string) : Prop :=
    every ordinary s /\ braceless s /\ forall t, s <> t ++ "{".

  (** Conditions on a field: names are GraphQL names, no argument contains a variable, and a
      variable standing for an argument of a directive has a value that needs no escapes. *)
  Inductive closed : qvalue -> Prop :=
  | closed_null : closed QNull
  | closed_bool b : closed (QBool b)
  | closed_num n : closed (QNum n)
  | closed_str s : closed (QStr s)
  | closed_enum s : closed (QEnum s)
  | closed_list l : (forall v, In v l -> closed v) -> closed (QList l)
  | closed_obj m : (forall k v, In (k, v) m -> closed v) -> closed (QObj m).
  Definition tame_argument (v : qvalue) : Prop :=
    closed v /\ fit (written_value v) /\ forall t, written_value v <> "$" ++ t.
  Inductive tame_mark : qvalue -> Prop :=
  | tame_variable x w : name x -> aget x vars = Some w -> every json_plain (written_value (constant w)) -> tame_mark (QVar x)
  | tame_constant v : tame_argument v -> tame_mark v.

  Inductive tame : field -> Prop :=
  | tame_other f : resolved_here f -> tame f
  | tame_served f n : served f n -> word_chars n ->
      (forall T, b_fragment f = Some T -> word_chars T) ->
      (forall a v, In a (b_args f) -> a_value a = Some v -> word_chars (a_name a) /\ tame_argument v) ->
      (forall d args k v, In (d, args) (b_directives f) -> word_chars d /\
         (In (k, v) args -> v <> QNull -> word_chars k /\ tame_mark v)) ->
      (forall g, In g (b_sel f) -> tame g) ->
      tame f.
End Wants.

(** * Calls *)

(** The calls an expression can make, those of merged members left out. *)
Inductive Calls {C : Type} : ir C -> C -> Prop :=
| calls_io c : Calls (IIO c) c
| calls_cache age c : Calls (ICache age c) c
| calls_path e p c : Calls e c -> Calls (IPath e p) c
| calls_protect a e c : Calls e c -> Calls (IProtect a e) c
| calls_map e m c : Calls e c -> Calls (IMap e m) c
| calls_left e1 e2 c : Calls e1 c -> Calls (IPipe e1 e2) c
| calls_right e1 e2 c : Calls e2 c -> Calls (IPipe e1 e2) c
| calls_discriminate d e c : Calls e c -> Calls (IDiscriminate d e) c
| calls_entity m k e c : In (k, e) m -> Calls e c -> Calls (IEntity m) c.

(** The fields of a plan, at any depth. *)
Inductive Within {IR : Type} : list (bfield IR) -> bfield IR -> Prop :=
| within_here l f : In f l -> Within l f
| within_below l g f : In g l -> Within (b_sel g) f -> Within l f.
