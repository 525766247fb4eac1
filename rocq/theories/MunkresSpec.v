(** Specification vocabulary for assignment solvers: a matrix of N*N costs in row order, and
    for each row the column assigned to it. *)
From Verif Require Import Base.

Definition one_to_one (N : nat) (p : list nat) : Prop := Permutation p (seq 0 N).
Definition total (N : nat) (costs : list Z) (p : list nat) : Z :=
  fold_right Z.add 0%Z (map (fun r => nth (r * N + nth r p 0) costs 0%Z) (seq 0 N)).
Definition cheapest (N : nat) (costs : list Z) (p : list nat) : Prop :=
  one_to_one N p /\ forall q, one_to_one N q -> (total N costs p <= total N costs q)%Z.
