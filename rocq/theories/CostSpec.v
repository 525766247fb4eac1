(** What the settings of an Interpolator should be. *)
From Verif Require Import Base CostModel.

(** The vector cost functions by their numbers; every other number means the sine. *)
Definition cost_number (n : Z) : nat := if (1 <=? n)%Z && (n <=? 4)%Z then Z.to_nat n else 0.
Definition cost_of (k : nat) : vector_cost :=
  nth k [SineSquared; VectorDistance; VectorProduct; VectorAngle; HermitianAngle] SineSquared.

(** [Room sh slot n]: data of the shape [sh] has room for [n] numbers per point and
    branch, which count as scalars (0), vectors (1) or matrices (2) when nothing is said. *)
Inductive Room : list nat -> nat -> nat -> Prop :=
| room_line p : Room [p] 0 1
| room_flat p n : Room [p; n] 0 n
| room_scalar p b n : Room [p; b; n] 0 n
| room_vector p b n : Room [p; b; n; 3] 1 (n * 3)
| room_matrix p b n : Room [p; b; n; 3; 3] 2 (n * 9).

(** The counts used: those given, or everything in one slot when all are zero. *)
Definition counts (e : nat * nat * nat) (slot n : nat) : nat * nat * nat :=
  match e with
  | (O, O, O) => match slot with 0 => (n, 0, 0) | 1 => (0, n, 0) | _ => (0, 0, n) end
  | _ => e
  end.
Definition total (e : nat * nat * nat) : nat := let '(a, b, c) := e in a + b + c.

(** [Fits sh n k]: [k] numbers per branch suit the room [n]. *)
Inductive Fits : list nat -> nat -> nat -> Prop :=
| fits_line p k n : k <= 1 -> Fits [p] n k
| fits_flat p m n k : k <> 0 -> (exists q, n = q * k) -> Fits [p; m] n k
| fits_branched p b c r n : Fits (p :: b :: c :: r) n n.
