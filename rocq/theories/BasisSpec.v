(** Specification vocabulary for the atoms in a unit cell. *)
From Coq Require Import QArith Qabs Permutation.
From Verif Require Import Base MatSpec QPoint BasisModel.
Local Open Scope nat_scope.

(** Moved by a lattice vector. *)
Definition translated (x : q3) (i j k : Z) : q3 := Q3 (qx x + inject_Z i) (qy x + inject_Z j) (qz x + inject_Z k).
(** Every coordinate of the two points agrees within the tolerances. *)
Definition agree (tabs trel : Q) (x y : q3) : Prop :=
  let c a b := ((1 - trel) * Qabs (a - b) <= tabs)%Q in c (qx x) (qx y) /\ c (qy x) (qy y) /\ c (qz x) (qz y).
(** They do up to a lattice vector. *)
Definition agree_mod (tabs trel : Q) (x y : q3) : Prop := exists i j k, agree tabs trel x (translated y i j k).
(** The squared distance in the coordinates of the cell. *)
Definition far (x y : q3) : Q := ((qx x - qx y) * (qx x - qx y) + (qy x - qy y) * (qy x - qy y) + (qz x - qz y) * (qz x - qz y))%Q.
(** Sums and images of points. *)
Definition sub (x y : q3) : q3 := Q3 (qx x - qx y) (qy x - qy y) (qz x - qz y).
Definition same (x y : q3) : Prop := (qx x == qx y /\ qy x == qy y /\ qz x == qz y)%Q.
(** A matrix applied to a point. *)
Definition turn (m : m3) (x : q3) : q3 :=
  Q3 (inject_Z (m00 m) * qx x + inject_Z (m01 m) * qy x + inject_Z (m02 m) * qz x)
     (inject_Z (m10 m) * qx x + inject_Z (m11 m) * qy x + inject_Z (m12 m) * qz x)
     (inject_Z (m20 m) * qx x + inject_Z (m21 m) * qy x + inject_Z (m22 m) * qz x).
(** What the operation does to a point. *)
Definition image (m : move) (x : q3) : q3 := let y := turn (rot m) x in Q3 (qx y + qx (tra m)) (qy y + qy (tra m)) (qz y + qz (tra m)).
(** Every operation brings every atom to an atom of the same type. *)
Definition symmetric (tabs trel : Q) (ops : list move) (b : basis) : Prop :=
  forall m x t, In m ops -> In (x, t) b -> exists y, In (y, t) b /\ agree_mod tabs trel (image m x) y.
(** Multiplying all rotations by one of them only rearranges them. *)
Definition closed (ops : list move) : Prop := forall m, In m ops -> Permutation (map (fun n => mul3 (rot m) (rot n)) ops) (map rot ops).
(** Operations that leave a place where it is up to lattice vectors. *)
Definition fixes (ops : list move) (s : q3) : Prop := forall m, In m ops -> exists i j k, same (image m s) (translated s i j k).
(** A place that the operations turn about s by less than half a cell. *)
Definition near (ops : list move) (s x : q3) : Prop := forall m, In m ops -> let d := sub (turn (rot m) (sub x s)) (sub x s) in (-(1#2) <= qx d /\ qx d < 1#2 /\ -(1#2) <= qy d /\ qy d < 1#2 /\ -(1#2) <= qz d /\ qz d < 1#2)%Q.
(** No two atoms have the same type. *)
Definition own_type (b : basis) : Prop := forall i j x y t, nth_error b i = Some (x, t) -> nth_error b j = Some (y, t) -> i = j.
(** Atoms that differ by little. *)
Definition close (e : Q) (b b' : basis) : Prop :=
  Forall2 (fun a a' => snd a = snd a' /\ (Qabs (qx (fst a) - qx (fst a')) <= e)%Q /\ (Qabs (qy (fst a) - qy (fst a')) <= e)%Q /\ (Qabs (qz (fst a) - qz (fst a')) <= e)%Q) b b'.
