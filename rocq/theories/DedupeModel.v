(** In-flight deduplication: src/core/data_loader/dedupe.rs (all line numbers below).

    Many calls of [Dedupe::dedupe] run concurrently on one [Dedupe].  Each runs
    [step] (89-115), which holds the lock throughout, and then returns, awaits another
    call's channel or executes.  A label is one such atomic piece, or a call being
    dropped by its owner (the future is cancelled, or the operation panics) at any
    point.  Calls are numbered; a channel is made only by a call that starts to
    execute, which happens at most once per call, so a channel carries the number of
    the call that made it.  A channel holds at most the one value its maker sends, so
    its capacity (19-20, one in [DedupeResult::new], 122) is not modelled. *)
From Coq Require Import Bool Arith List.
From Verif Require Import Base.
Import ListNotations.
Open Scope list_scope.

Section Dedupe.
  Context {K V : Type}.
  Variable keq : forall a b : K, {a = b} + {a <> b}.
  Variable persist : bool.                                        (** 22 *)

  (** Lines 26-33.  The weak reference to the sender: whose. *)
  Inductive entry : Type := Ready (v : V) | Pending (j : nat).

  (** What the receivers of a channel see: nothing yet, a value, or that the sender is
      gone without having sent.  The sender is owned by its maker alone (112-113). *)
  Inductive channel : Type := Open | Sent (v : V) | Closed.

  Inductive phase : Type :=
  | Trying                       (** at the top of the loop, 58 *)
  | Awaiting (j : nat)           (** in [rx.recv().await], 61 *)
  | Executing                    (** in [or_else().await], 71 *)
  | Returned (v : V)             (** 84 *)
  | Dropped.

  Record state : Type :=
    { s_cache : K -> option entry; s_chan : nat -> channel; s_calls : nat -> option (K * phase) }.

  Definition new : state := {| s_cache := fun _ => None; s_chan := fun _ => Closed; s_calls := fun _ => None |}.

  Definition set_call (i : nat) (c : K * phase) (s : state) : state :=
    {| s_cache := s_cache s; s_chan := s_chan s;
       s_calls := fun j => if Nat.eq_dec j i then Some c else s_calls s j |}.
  Definition set_chan (i : nat) (c : channel) (s : state) : state :=
    {| s_cache := s_cache s; s_chan := fun j => if Nat.eq_dec j i then c else s_chan s j; s_calls := s_calls s |}.
  Definition set_entry (k : K) (e : option entry) (s : state) : state :=
    {| s_cache := fun k' => if keq k' k then e else s_cache s k'; s_chan := s_chan s; s_calls := s_calls s |}.

  (** Lines 109-114. *)
  Definition init (i : nat) (k : K) (s : state) : state :=
    set_call i (k, Executing) (set_chan i Open (set_entry k (Some (Pending i)) s)).

  (** Lines 89-115, called from 59. *)
  Definition run_step (i : nat) (k : K) (s : state) : state :=
    match s_cache s k with
    | Some (Ready v) => set_call i (k, Returned v) s                    (* 94, 60 *)
    | Some (Pending j) =>
        match s_chan s j with
        | Open => set_call i (k, Awaiting j) s                          (* 99-101 *)
        | _ => init i k s
        end
    | None => init i k s
    end.

  Inductive label : Type :=
  | Arrive (i : nat) (k : K)     (** a call of [dedupe] with this key *)
  | Step (i : nat)               (** it runs [step] *)
  | Receive (i : nat)            (** its [recv] completes, 61-69 *)
  | Finish (i : nat) (v : V)     (** its operation returns [v], 71-79 *)
  | Drop (i : nat).              (** its future is dropped *)

  Definition step (s : state) (l : label) : option state :=
    match l with
    | Arrive i k => match s_calls s i with None => Some (set_call i (k, Trying) s) | Some _ => None end
    | Step i => match s_calls s i with Some (k, Trying) => Some (run_step i k s) | _ => None end
    | Receive i =>
        match s_calls s i with
        | Some (k, Awaiting j) =>
            match s_chan s j with
            | Open => None
            | Sent v => Some (set_call i (k, Returned v) s)
            | Closed => Some (set_call i (k, Trying) s)                 (* 63-68 *)
            end
        | _ => None
        end
    | Finish i v =>
        match s_calls s i with
        | Some (k, Executing) =>
            Some (set_call i (k, Returned v) (set_chan i (Sent v)
                   (set_entry k (if persist then Some (Ready v) else None) s)))   (* 73-79 *)
        | _ => None
        end
    | Drop i =>
        match s_calls s i with
        | Some (k, Executing) => Some (set_call i (k, Dropped) (set_chan i Closed s))
        | Some (k, Trying) | Some (k, Awaiting _) => Some (set_call i (k, Dropped) s)
        | _ => None
        end
    end.

  Fixpoint steps (s : state) (ls : list label) : option state :=
    match ls with
    | [] => Some s
    | l :: rest => match step s l with Some s' => steps s' rest | None => None end
    end.
End Dedupe.
