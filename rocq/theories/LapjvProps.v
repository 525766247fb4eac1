(** Theorems about the Jonker-Volgenant assignment solver (C20, C21, C77). *)
From Verif Require Import Base MunkresSpec SmpSpec LapjvModel LapjvExactProofs.

(** C20, whatever the numbers are and however they round, as long as nothing overflows: given
    a class of ordinary numbers that the operations do not leave and that lie below the largest
    number of the type (reals or rounded numbers without a bound, with a number above them), the
    solver on a square matrix of ordinary numbers never leaves its arrays, and unless the row
    reduction goes on for ever the row and column solutions undo each other. *)
Theorem lapjv_inverse : forall (C : Type) (zero : C) (add sub : C -> C -> C) (lt le eq : C -> C -> bool) (top : C) (share : C -> nat -> C) (ordinary : C -> Prop) (N : nat) (cost : list C) fuel rs cs u v,
  (forall a b, ordinary a -> ordinary b -> ordinary (sub a b)) -> (forall a b, ordinary a -> ordinary b -> ordinary (add a b)) ->
  (forall a b, ordinary a -> ordinary b -> lt (sub a b) top = true) -> (forall a b e, ordinary a -> ordinary b -> ordinary e -> lt (sub a b) (add top e) = true) ->
  (forall a, ordinary a -> ordinary (share a N)) -> ordinary zero -> (forall c, In c cost -> ordinary c) ->
  1 <= N -> length cost = N * N -> length rs = N -> length cs = N -> length u = N -> length v = N -> N < fuel ->
  lapjv C zero add sub lt le eq top share N cost fuel rs cs u v = OutOfFuel \/
  exists t r c u' v', lapjv C zero add sub lt le eq top share N cost fuel rs cs u v = Ok (t, r, map Some c, u', v') /\ inverse_lists N r c.
Proof. exact lapjv_inverse_proof. Qed.
Print Assumptions lapjv_inverse.
(** An instance: numbers rounded down to even ones after each operation, with a number above all. *)
Example lapjv_inverse_example : let rop f := zop (fun a b => 2 * (f a b / 2))%Z in let ordinary x := exists z, x = Some z in
  (forall a b, ordinary a -> ordinary b -> ordinary (rop Z.sub a b)) /\ (forall a b, ordinary a -> ordinary b -> ordinary (rop Z.add a b)) /\
  (forall a b, ordinary a -> ordinary b -> zlt (rop Z.sub a b) None = true) /\ (forall a b e, ordinary a -> ordinary b -> ordinary e -> zlt (rop Z.sub a b) (rop Z.add None e) = true) /\
  (forall a, ordinary a -> ordinary (zshare a 3)) /\
  lapjv (option Z) (Some 0%Z) (rop Z.add) (rop Z.sub) zlt zle zeq None zshare 3 (map Some [4; 1; 3; 2; 0; 5; 3; 2; 2]%Z) 20 [9; 9; 9] [None; None; None] [None; None; None] [None; None; None]
  = Ok (Some 4%Z, [2; 1; 0], map Some [2; 1; 0], [Some 0; Some 0; Some 0]%Z, [Some 2; Some 0; Some 2]%Z).
Proof.
  cbn zeta. split; [intros a b [x ->] [y ->]; eexists; reflexivity|]. split; [intros a b [x ->] [y ->]; eexists; reflexivity|]. split; [intros a b [x ->] [y ->]; reflexivity|].
  split; [intros a b e [x ->] [y ->] [z ->]; reflexivity|]. split; [intros a [x ->]; eexists; reflexivity|]. vm_compute. reflexivity.
Qed.

(** C20, with exact numbers: for every square matrix of whole numbers the solver comes to an
    end, the solutions undo each other and the cost it reports is the cost of its assignment. *)
Theorem lapjv_returns : forall N costs rs cs u v, 1 <= N -> length costs = N * N -> length rs = N -> length cs = N -> length u = N -> length v = N ->
  exists f0, forall fuel, f0 <= fuel -> exists r c u' v', lapjv_exact N costs fuel rs cs u v = Ok (Some (total N costs r), r, map Some c, u', v') /\ inverse_lists N r c.
Proof. exact lapjv_returns_proof. Qed.
Print Assumptions lapjv_returns.
Example lapjv_returns_example : lapjv_exact 4 [1; 2; 3; 4; 2; 4; 6; 8; 3; 6; 9; 12; 4; 8; 12; 16]%Z 20 [0; 0; 0; 0] (repeat None 4) (repeat None 4) (repeat None 4)
  = Ok (Some 20%Z, [3; 2; 1; 0], [Some 3; Some 2; Some 1; Some 0], [Some 0; Some 4; Some 6; Some 7]%Z, [Some (-3); Some 0; Some 2; Some 4]%Z)
  /\ total 4 [1; 2; 3; 4; 2; 4; 6; 8; 3; 6; 9; 12; 4; 8; 12; 16]%Z [3; 2; 1; 0] = 20%Z.
Proof. vm_compute. split; reflexivity. Qed.

(** C21, how near the result is: for non-negative costs whose sum is a multiple of 10000*N (any
    costs that are fractions, on a suitable scale) the cost of the result is at most
    (N-1)/10000 times the sum of all costs above that of any assignment.  The full statement
    has no such allowance and is refuted below. *)
Theorem lapjv_cheapest_partial : forall N costs rs cs u v, 1 <= N -> length costs = N * N -> length rs = N -> length cs = N -> length u = N -> length v = N ->
  (forall x, In x costs -> (0 <= x)%Z) -> (10000 * Z.of_nat N | fold_right Z.add 0 costs)%Z ->
  exists f0, forall fuel, f0 <= fuel -> exists r c u' v', lapjv_exact N costs fuel rs cs u v = Ok (Some (total N costs r), r, map Some c, u', v') /\ one_to_one N r /\
    forall q, one_to_one N q -> (10000 * total N costs r <= 10000 * total N costs q + (Z.of_nat N - 1) * fold_right Z.add 0 costs)%Z.
Proof. exact lapjv_near_proof. Qed.
Print Assumptions lapjv_cheapest_partial.
Example lapjv_cheapest_example : (10000 * Z.of_nat 2 | fold_right Z.add 0 [9000; 1000; 2000; 8000])%Z /\
  lapjv_exact 2 [9000; 1000; 2000; 8000]%Z 20 [0; 0] [None; None] [None; None] [None; None] = Ok (Some 3000%Z, [1; 0], [Some 1; Some 0], [Some 7000; Some 14000]%Z, [Some (-12000); Some (-6000)]%Z).
Proof. split; [exists 1%Z; reflexivity|vm_compute; reflexivity]. Qed.

(** C21 is false: an assignment of cost 0 exists and one of cost 9 is returned, because one
    large entry, in neither of them, makes the margin of the comparisons 10. *)
Theorem lapjv_cheapest_refuted : exists N costs fuel r cs u v, lapjv_exact N costs fuel (repeat 0 N) (repeat None N) (repeat None N) (repeat None N) = Ok (Some (total N costs r), r, cs, u, v) /\
  (forall x, In x costs -> (0 <= x)%Z) /\ (10000 * Z.of_nat N | fold_right Z.add 0 costs)%Z /\ exists q, one_to_one N q /\ total N costs q = 0%Z /\ (0 < total N costs r)%Z.
Proof. exact lapjv_cheapest_refuted_proof. Qed.
Print Assumptions lapjv_cheapest_refuted.

(** C77 is false: with costs that are not numbers, which compare false with everything, the
    second column is never set and [colsol] is read at -1. *)
Theorem lapjv_nan_refuted : exists N costs fuel, length costs = N * N /\ lapjv_nan N costs fuel (repeat 0 N) (repeat None N) (repeat (Some 0%Z) N) (repeat (Some 0%Z) N) = UB.
Proof. exact lapjv_nan_refuted_proof. Qed.
Print Assumptions lapjv_nan_refuted.
