(** Theorems about the stable-matching solver and the permutation stored from a solution
    (C22, C76). *)
From Verif Require Import Base MunkresSpec SmpModel SmpSpec SmpProofs.

(** C22, the part about matchings: for every matrix of preferences the solver neither throws
    nor leaves its arrays, gets all rows and columns matched before the pass limit, and the two
    solutions undo each other. *)
Theorem smp_matching : forall N prefs rs0 cs0, length prefs = N * N -> length rs0 = N -> length cs0 = N ->
  exists r c, smp N prefs rs0 cs0 = Ok (true, r, c) /\ inverse_lists N r c.
Proof. exact smp_matching_proof. Qed.
Print Assumptions smp_matching.
Example smp_matching_example : smp 3 [1; 9; 2; 5; 3; 7; 2; 2; 2]%Z [7; 7; 7] [7; 7; 7] = Ok (true, [2; 0; 1], [1; 2; 0]).
Proof. vm_compute. reflexivity. Qed.

(** C22, stability, where it holds: when all columns put the rows in the same order, so that
    it does not matter whose ranking is consulted.  The full statement has no such hypothesis
    and is refuted below. *)
Theorem smp_stable_partial : forall N prefs rs0 cs0, length prefs = N * N -> length rs0 = N -> length cs0 = N -> columns_agree N prefs ->
  exists r c, smp N prefs rs0 cs0 = Ok (true, r, c) /\ inverse_lists N r c /\ forall i j, ~ blocks N prefs r c i j.
Proof. exact smp_agree_proof. Qed.
Print Assumptions smp_stable_partial.
Example smp_stable_example : columns_agree 2 [1; 3; 4; 6]%Z /\ smp 2 [1; 3; 4; 6]%Z [0; 0] [0; 0] = Ok (true, [0; 1], [0; 1]).
Proof.
  split; [|vm_compute; reflexivity]. intros c c' r r' H1 H2 H3 H4 H.
  destruct c as [|[|c]], c' as [|[|c']], r as [|[|r]], r' as [|[|r']]; cbn in *; lia.
Qed.

(** C22 is false: the solver consults the ranking of column i, not of the column asked.  Row 0
    and column 0 like each other best and are matched to others. *)
Theorem smp_stable_refuted : exists N prefs r c, smp N prefs (repeat 0 N) (repeat 0 N) = Ok (true, r, c) /\ exists i j, blocks N prefs r c i j.
Proof. exact smp_stable_refuted_proof. Qed.
Print Assumptions smp_stable_refuted.

(** C76: from the permutation of the neighbour and a one-to-one solution the centre gets a
    permutation, and it labels with the same number the objects that the solution pairs. *)
Theorem stored_permutation : forall N neighbour sol centre, one_to_one N neighbour -> one_to_one N sol -> length centre = N ->
  exists p, store N neighbour sol centre = Ok p /\ one_to_one N p /\ forall i, i < N -> nth (nth i p 0) sol 0 = nth i neighbour 0.
Proof. exact store_proof. Qed.
Print Assumptions stored_permutation.
Example stored_permutation_example : one_to_one 3 [1; 2; 0] /\ one_to_one 3 [2; 1; 0] /\ store 3 [1; 2; 0] [2; 1; 0] [9; 9; 9] = Ok [1; 0; 2].
Proof.
  split; [|split; [|vm_compute; reflexivity]]; unfold one_to_one; cbn [seq].
  - apply Permutation_sym, (Permutation_cons_append [1; 2] 0).
  - apply (Permutation_rev [2; 1; 0]).
Qed.
