(** Theorems about the Munkres assignment solver (C18, C19). *)
From Coq Require Import Permutation.
From Verif Require Import Base MunkresModel MunkresSpec MunkresProofs MunkresPathProofs.

(** C18: for every matrix of costs, of any sign, the solver ends without touching memory out
    of range; when it reports success the first N entries of the buffer are a one-to-one
    assignment with the least total, and otherwise the buffer is left alone. *)
Theorem munkres_optimal : forall N costs fuel out, length costs = N * N -> 2 * N * N + 3 * N + 4 < fuel -> N <= length out ->
  exists s flag out', construct N fuel costs = Ok s /\ get_assignment N fuel s out = Ok (flag, out') /\
    (flag = true -> exists p, out' = p ++ skipn N out /\ cheapest N costs p) /\ (flag = false -> out' = out).
Proof. exact munkres_optimal_proof. Qed.
Print Assumptions munkres_optimal.
(** The usual hard case, with costs the products of row and column numbers. *)
Example munkres_optimal_example : 
  bind (construct 4 49 (map Z.of_nat [1; 2; 3; 4; 2; 4; 6; 8; 3; 6; 9; 12; 4; 8; 12; 16])) (fun s => get_assignment 4 49 s [0; 0; 0; 0; 9]) = Ok (true, [3; 2; 1; 0; 9]).
Proof. vm_compute. reflexivity. Qed.

(** C19, where it holds: success for every matrix with a cost other than zero. *)
Theorem munkres_success : forall N costs fuel out, length costs = N * N -> 2 * N * N + 3 * N + 4 < fuel -> N <= length out -> (exists x, In x costs /\ x <> 0%Z) ->
  exists s p, construct N fuel costs = Ok s /\ finished s = true /\ get_assignment N fuel s out = Ok (true, p ++ skipn N out) /\ cheapest N costs p.
Proof. exact munkres_success_proof. Qed.
Print Assumptions munkres_success.
Example munkres_success_example : bind (construct 2 20 [0; 0; 0; 5]%Z) (fun s => get_assignment 2 20 s [7; 7]) = Ok (true, [1; 0]).
Proof. vm_compute. reflexivity. Qed.
(** The same when the costs are written into an object that has been used before. *)
Theorem munkres_reuse : forall N costs s fuel out, length costs = N * N -> N * N <= length (mask s) -> length (rowcover s) = N -> length (colcover s) = N -> 2 * N * N + 3 * N + 4 < fuel -> N <= length out -> (exists x, In x costs /\ x <> 0%Z) ->
  exists s' p, run_assignment N fuel (Mk costs (mask s) (step s) (rowcover s) (colcover s) (stored_row s) (stored_col s) (finished s)) = Ok s' /\ finished s' = true /\
    get_assignment N fuel s' out = Ok (true, p ++ skipn N out) /\ cheapest N costs p.
Proof. exact munkres_refill_proof. Qed.
Print Assumptions munkres_reuse.
Example munkres_reuse_example : let s := Mk [0; 0; 0; 0]%Z [Normal; Stared; Primed; Normal] 7 [true; false] [false; true] 1 1 true in
  2 * 2 <= length (mask s) /\ length (rowcover s) = 2 /\ length (colcover s) = 2 /\
  bind (run_assignment 2 20 (Mk [1; 2; 3; 9]%Z (mask s) (step s) (rowcover s) (colcover s) (stored_row s) (stored_col s) (finished s))) (fun s => get_assignment 2 20 s [7; 7]) = Ok (true, [1; 0]).
Proof. cbn [mask rowcover colcover length]. repeat split; try lia; vm_compute; reflexivity. Qed.

(** C19 fails for a matrix of zeros, of any size: there the solver reports that it found
    nothing and leaves the buffer alone. *)
Theorem munkres_success_refuted : forall N fuel out, exists costs, length costs = N * N /\ (forall x, In x costs -> (0 <= x)%Z) /\
  (exists p, cheapest N costs p) /\ exists s, construct N fuel costs = Ok s /\ finished s = false /\ get_assignment N fuel s out = Ok (false, out).
Proof.
  exact munkres_success_refuted_proof.
Qed.
Print Assumptions munkres_success_refuted.
Theorem munkres_all_zero : forall N costs fuel out, length costs = N * N -> (forall x, In x costs -> x = 0%Z) ->
  exists s, construct N fuel costs = Ok s /\ finished s = false /\ get_assignment N fuel s out = Ok (false, out).
Proof. exact munkres_all_zero_proof. Qed.
Print Assumptions munkres_all_zero.
Example munkres_all_zero_example : bind (construct 2 20 [0; 0; 0; 0]%Z) (fun s => get_assignment 2 20 s [7; 7]) = Ok (false, [7; 7]).
Proof. vm_compute. reflexivity. Qed.
