(** C34: cached upstream values expire. *)
From Coq Require Import ZArith NArith Bool List.
From Verif Require Import TtlModel TtlSpec TtlProofs.
Import ListNotations.
Open Scope Z_scope.

(** Whatever a lookup returns was the last value written under that key, and has
    not expired.  This holds whatever the capacity. *)
Theorem C34_no_stale_value :
  forall V (cap : nat) (past rest : list (use V)) now k v,
    exists r1 a r2,
      fst (uses cap (past ++ UGet now k :: rest) mc_new) = r1 ++ a :: r2 /\
      length r1 = length (filter is_get past) /\
      (a = Some v -> exists expiry, Stored k past v expiry /\ now <= expiry).
Proof. intros. exact (lookup_sound cap past now k v rest). Qed.
Print Assumptions C34_no_stale_value.

(** As long as the keys written fit the capacity, a lookup returns a value exactly
    if it was the last one written under that key and has not expired. *)
Theorem C34_kept_until_expiry :
  forall V (cap : nat) (ks : list Z) (past rest : list (use V)) now k v,
    (forall j, In j (written past) -> In j ks) -> (length ks <= cap)%nat ->
    exists r1 a r2,
      fst (uses cap (past ++ UGet now k :: rest) mc_new) = r1 ++ a :: r2 /\
      length r1 = length (filter is_get past) /\
      (a = Some v <-> exists expiry, Stored k past v expiry /\ now <= expiry).
Proof. intros V cap ks past rest now k v. exact (lookup_exact cap ks past now k v rest). Qed.
Print Assumptions C34_kept_until_expiry.

(** The hit rate counts every lookup once. *)
Theorem C34_hit_rate_counts_lookups :
  forall V (cap : nat) (l : list (use V)),
    let '(rs, c) := uses cap l mc_new in
    mc_hits c = N.of_nat (length (filter (fun r => match r with Some _ => true | None => false end) rs)) /\
    mc_miss c = N.of_nat (length (filter (fun r => match r with Some _ => false | None => true end) rs)).
Proof. intros V cap l. exact (counters cap l mc_new). Qed.
Print Assumptions C34_hit_rate_counts_lookups.

Definition history34 : list (use bool) :=
  [USet 0 1 true 100; UGet 50 1; USet 60 2 false 10; UGet 100 1; UGet 101 1; USet 200 1 false 50; UGet 250 1; UGet 71 2].

Example C34_witness :
  fst (uses 3 history34 mc_new) = [Some true; Some true; None; Some false; None] /\
  (forall j, In j (written history34) -> In j [1; 2]) /\
  (* with room for one entry the oldest goes *)
  fst (uses 1 [USet 0 1 true 100; USet 0 2 false 100; UGet 1 1; UGet 1 2] mc_new) = [None; Some false].
Proof. split; [reflexivity|split; [|reflexivity]]. cbn. tauto. Qed.
