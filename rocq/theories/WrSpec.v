(** Vocabulary for warnings and the log (C103). *)
From Coq Require Import String Ascii NArith Bool List.
From Verif Require Import Base WrModel.
Import ListNotations.
Open Scope string_scope.

(** A file that is there and is not what comes with this version *)
Definition differs (f : file) (base : string) : Prop := f = Unreadable \/ exists t, f = Text t /\ t <> base.
(** The names of those of two files, in their order *)
Inductive listed (a b : string) : Prop -> Prop -> string -> Prop :=
| listed_both : forall (A B : Prop), A -> B -> listed a b A B (a ++ ", " ++ b)%string
| listed_first : forall (A B : Prop), A -> ~ B -> listed a b A B a
| listed_second : forall (A B : Prop), ~ A -> B -> listed a b A B b.
(** The warning for a directory *)
Definition warns_of (join : string -> string -> string) (rc_graphql rc_schema : string) (disk : string -> file) (dir : string) (text : string) : Prop :=
  listed ".tailcallrc.graphql" ".tailcallrc.schema.json"
    (differs (disk (join dir ".tailcallrc.graphql")) rc_graphql) (differs (disk (join dir ".tailcallrc.schema.json")) rc_schema) text.
(** The warnings for paths, in their order *)
Inductive warned (parent : string -> option string) (says : string -> string -> Prop) : list string -> list string -> Prop :=
| warned_none : warned parent says [] []
| warned_root : forall p l ws, parent p = None -> warned parent says l ws -> warned parent says (p :: l) ws
| warned_fine : forall p dir l ws, parent p = Some dir -> (forall t, ~ says dir t) -> warned parent says l ws -> warned parent says (p :: l) ws
| warned_old : forall p dir t l ws, parent p = Some dir -> says dir t -> warned parent says l ws -> warned parent says (p :: l) (t :: ws).
(** A word in any case *)
Definition cased (c d : ascii) : Prop := d = c \/ exists n, (97 <= n <= 122)%N /\ c = ascii_of_N n /\ d = ascii_of_N (n - 32).
Inductive written_as : string -> string -> Prop :=
| written_nil : written_as "" ""
| written_cons : forall c d s t, cased c d -> written_as s t -> written_as (String c s) (String d t).
(** A number: with or without a plus sign and any number of zeros in front *)
Fixpoint zeros (n : nat) : string := match n with O => "" | S m => String "0" (zeros m) end.
Definition numbered (d v : string) : Prop := exists n, v = (zeros n ++ d)%string \/ v = ("+" ++ zeros n ++ d)%string.
Inductive names_level : string -> level -> Prop :=
| names_error : forall v, written_as "error" v \/ numbered "1" v -> names_level v Error
| names_warn : forall v, written_as "warn" v \/ numbered "2" v -> names_level v Warn
| names_info : forall v, written_as "info" v \/ numbered "3" v -> names_level v Info
| names_debug : forall v, written_as "debug" v \/ numbered "4" v -> names_level v Debug
| names_trace : forall v, written_as "trace" v \/ numbered "5" v -> names_level v Trace.
(** The more serious one *)
Inductive as_serious : level -> level -> Prop :=
| serious_same : forall l, as_serious l l
| serious_error : as_serious Error Warn
| serious_warn : as_serious Warn Info
| serious_info : as_serious Info Debug
| serious_debug : as_serious Debug Trace
| serious_trans : forall a b c, as_serious a b -> as_serious b c -> as_serious a c.
