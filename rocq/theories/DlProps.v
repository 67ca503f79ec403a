(** C10 and C11: what a caller of the data loader gets, and the loader's bookkeeping.

    [steps new ls = Some s]: the labels [ls] are a possible history of the loader
    (calls, timers, the batch function returning or panicking, cache switches) and
    [s] is the state it leads to.  Calls are numbered by their caller. *)
From Coq Require Import Bool Arith List.
From Verif Require Import Base DlModel DlSpec DlProofs.
Import ListNotations.
Open Scope list_scope.

Section Claims.
  Context {K V Er : Type}.
  Variable keq : forall a b : K, {a = b} + {a <> b}.
  Variable sto : storage K V.
  Variable max_size : nat.
  Notation state := (state (Er := Er) sto).
  Notation steps := (steps (Er := Er) keq sto max_size).

  (** The successful answer to a call holds nothing but asked keys; keys the cache
      knew when the call was made have the cached value; and unless that was all,
      one finished batch that was given the remaining keys supplies exactly its own
      values for them. *)
  Theorem C10_calls_get_their_own_values :
    CacheLaws sto ->
    forall (l1 : list label) (s0 s : state) i ks l2 m,
      steps (new sto) l1 = Some s0 -> steps s0 (Ask i ks :: l2) = Some s -> answer sto s i = Some (Got (Ok m)) ->
      (forall k, ~ In k ks -> lookup keq k m = None) /\
      (forall k v, In k ks -> cached sto s0 k = Some v -> lookup keq k m = Some v) /\
      ((forall k, In k ks -> cached sto s0 k <> None) \/
       exists b vals, in_batch sto s i b /\ b_status b = Finished (Ok vals) /\
         forall k, In k ks -> cached sto s0 k = None -> In k (b_keys b) /\ lookup keq k m = lookup keq k vals).
  Proof. intros L l1 s0 s i ks l2 m. exact (own_values keq sto max_size L l1 s0 i ks l2 s m). Qed.

  (** A call fails only with the error of the batch it was in, or because that batch
      panicked. *)
  Theorem C10_failures_are_the_batchs_failures :
    CacheLaws sto ->
    forall (l1 : list label) (s0 s : state) i ks l2 o,
      steps (new sto) l1 = Some s0 -> steps s0 (Ask i ks :: l2) = Some s -> answer sto s i = Some o ->
      (forall m, o <> Got (Ok m)) ->
      exists b, in_batch sto s i b /\
        ((exists e, b_status b = Finished (Err e) /\ o = Got (Err e)) \/ (b_status b = Crashed /\ o = Lost)).
  Proof. intros L l1 s0 s i ks l2 o. exact (failed_call keq sto max_size L l1 s0 i ks l2 s o). Qed.

  (** When a batch ends, all its members are answered, the way it ended. *)
  Theorem C10_an_ended_batch_answers_its_members :
    forall ls (s : state) i b, steps (new sto) ls = Some s -> in_batch sto s i b ->
      match b_status b with
      | Running => answer sto s i = None
      | Finished (Ok vals) => exists m, answer sto s i = Some (Got (Ok m))
      | Finished (Err e) => answer sto s i = Some (Got (Err e))
      | Crashed => answer sto s i = Some Lost
      end.
  Proof. exact (batch_members_answered keq sto max_size). Qed.

  Theorem C10_answers_are_final :
    forall l1 (s : state) l2 s' i o,
      steps (new sto) l1 = Some s -> answer sto s i = Some o -> steps s l2 = Some s' -> answer sto s' i = Some o.
  Proof. exact (final keq sto max_size). Qed.

  (** Once no timer and no batch runs any more, every call has an answer. *)
  Theorem C10_nobody_is_forgotten :
    forall ls (s : state) i ks,
      steps (new sto) ls = Some s -> asked sto s i = Some ks -> d_timers sto s = [] ->
      (forall b, In b (d_batches sto s) -> b_status b <> Running) -> answer sto s i <> None.
  Proof. exact (none_forgotten keq sto max_size). Qed.

  (** What the cache answers was fed to it or returned by the batch function, for
      this key. *)
  Theorem C10_cached_values_were_fed_or_loaded :
    CacheLaws sto ->
    forall ls (s : state) k v, steps (new sto) ls = Some s -> cached sto s k = Some v ->
      (exists kvs, In (Feed kvs) ls /\ In (k, v) kvs) \/
      (exists n vals, In (Done n (Ok vals)) ls /\ In (k, v) vals).
  Proof.
    intros L ls s k v H C. apply (cache_origin keq sto max_size L ls s H k v). unfold cached in C.
    destruct (_ || _); [discriminate|exact C].
  Qed.

  (** *** C11 *)
  (** Somebody works for every call that has no answer yet, and only once; nobody
      works for the others. *)
  Theorem C11_unanswered_calls_are_worked_on_once :
    forall ls (s : state) i ks, steps (new sto) ls = Some s -> asked sto s i = Some ks ->
      count_occ Nat.eq_dec (in_work sto s) i = match answer sto s i with None => 1 | Some _ => 0 end.
  Proof. exact (unanswered_in_work_once keq sto max_size). Qed.

  (** No key is handed twice to the same batch, no batch is empty, its keys are asked
      for by its members, and each member waits for one of them. *)
  Theorem C11_batch_keys_are_its_members_keys :
    CacheLaws sto ->
    forall ls (s : state) b, steps (new sto) ls = Some s -> In b (d_batches sto s) ->
      NoDup (b_keys b) /\ b_keys b <> [] /\
      (forall k, In k (b_keys b) -> exists i ks, in_batch sto s i b /\ asked sto s i = Some ks /\ In k ks) /\
      (forall i, in_batch sto s i b -> exists ks k, asked sto s i = Some ks /\ In k ks /\ In k (b_keys b)).
  Proof. intros L ls s b. exact (batch_keys keq sto max_size L ls s b). Qed.

  (** Whenever a call waits for its batch to start, a timer is running that will start
      it, and fewer keys than a full batch are waiting, none of them twice. *)
  Theorem C11_waiting_calls_have_a_timer :
    forall ls (s : state), steps (new sto) ls = Some s ->
      (d_pending sto s <> [] -> d_timers sto s <> []) /\
      (d_pending sto s <> [] -> length (d_keys sto s) < max_size) /\ NoDup (d_keys sto s).
  Proof. exact (waiting_has_a_timer keq sto max_size). Qed.

  (** If every call asks for one key, no batch is larger than the configured size. *)
  Theorem C11_single_key_calls_never_overfill :
    forall ls (s : state), steps (new sto) ls = Some s ->
      (forall i ks, In (Ask i ks) ls -> length ks <= 1) ->
      forall b, In b (d_batches sto s) -> length (b_keys b) <= Nat.max 1 max_size.
  Proof. exact (single_key_batches keq sto max_size). Qed.
End Claims.
Print Assumptions C10_calls_get_their_own_values.
Print Assumptions C10_failures_are_the_batchs_failures.
Print Assumptions C10_an_ended_batch_answers_its_members.
Print Assumptions C10_answers_are_final.
Print Assumptions C10_nobody_is_forgotten.
Print Assumptions C10_cached_values_were_fed_or_loaded.
Print Assumptions C11_unanswered_calls_are_worked_on_once.
Print Assumptions C11_batch_keys_are_its_members_keys.
Print Assumptions C11_waiting_calls_have_a_timer.
Print Assumptions C11_single_key_calls_never_overfill.

(** The caches the loader comes with obey the laws. *)
Theorem C10_every_cache_on_offer_obeys_the_laws :
  forall {K V} (keq : forall a b : K, {a = b} + {a <> b}),
    CacheLaws (no_cache K V) /\ CacheLaws (hash_cache (V := V) keq) /\ forall cap, CacheLaws (lru_cache (V := V) keq cap).
Proof. intros K V keq. split; [apply no_cache_laws|split; [apply hash_cache_laws|apply lru_cache_laws]]. Qed.
Print Assumptions C10_every_cache_on_offer_obeys_the_laws.

(** Larger calls do overfill: a batch of three where the limit is two. *)
Theorem C11_batches_can_exceed_the_configured_size_refuted :
  exists ls s b, steps (Er := nat) Nat.eq_dec (no_cache nat nat) 2 (new _) ls = Some s /\
    In b (d_batches _ s) /\ 2 < length (b_keys b).
Proof.
  exists [Ask 0 [1; 2; 3]]. eexists. eexists. split; [vm_compute; reflexivity|]. split; [left; reflexivity|].
  apply Nat.leb_le. reflexivity.
Qed.
Print Assumptions C11_batches_can_exceed_the_configured_size_refuted.

(** Non-vacuity: three calls, the first two share a batch of size two, the third finds
    one key in the cache and waits for its timer for the other one; its batch fails. *)
Definition h10 : list (label (K := nat) (V := nat) (Er := nat)) :=
  [Ask 0 [7]; Ask 1 [7; 8]; Done 0 (Ok [(7, 70); (8, 80)]); Ask 2 [8; 9]; Ask 3 [8; 7]; Fire 0; Fire 0; Done 1 (Err 5)].
Example C10_case :
  match steps Nat.eq_dec (hash_cache Nat.eq_dec) 2 (new _) h10 with
  | Some s => answer _ s 0 = Some (Got (Ok [(7, 70)])) /\ answer _ s 1 = Some (Got (Ok [(7, 70); (8, 80)])) /\
              answer _ s 2 = Some (Got (Err 5)) /\ answer _ s 3 = Some (Got (Ok [(8, 80); (7, 70)])) /\
              d_timers _ s = [] /\ map (@b_keys _ _ _) (d_batches _ s) = [[7; 8]; [9]]
  | None => False
  end.
Proof. vm_compute. repeat split. Qed.
Example C11_case :
  match steps Nat.eq_dec (no_cache nat nat) 3 (new _) (firstn 2 h10) with
  | Some s => d_keys _ s = [7; 8] /\ in_work _ s = [0; 1] /\ length (d_timers _ s) = 1
  | None => False
  end.
Proof. vm_compute. repeat split. Qed.
