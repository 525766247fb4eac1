(** Model of src/motion.hpp (without the text conversions).

    A translation component is an integer t standing for t/D, for an arbitrary
    common denominator D > 0: the operations only add translations and multiply
    them by integers, so D is never changed by them.  Floating point rounding
    and the tolerance of the comparisons are idealised away. *)
From Verif Require Import Base MatModel MatSpec.
Local Open Scope Z_scope.

(** src/motion.hpp 27-29. *)
Record motion := Mo { rotp : m3; trap : v3 }.

Definition m3_of (l : list Z) : m3 :=
  M3 (zat l 0) (zat l 1) (zat l 2) (zat l 3) (zat l 4) (zat l 5) (zat l 6) (zat l 7) (zat l 8).
Definition v3_of (l : list Z) : v3 := V3 (zat l 0) (zat l 1) (zat l 2).

(** [x - std::floor(x)] on x/D, component by component. *)
Definition frac3 (D : Z) (x : v3) : v3 := V3 (v0 x mod D) (v1 x mod D) (v2 x mod D).
Definition add3 (x y : v3) : v3 := V3 (v0 x + v0 y) (v1 x + v1 y) (v2 x + v2 y).

(** 37-50: [operator*]. *)
Definition motion_mul (D : Z) (a b : motion) : motion :=
  let outW := m3_of (multiply_matrix_matrix 3 (l9 (rotp a)) (l9 (rotp b))) in
  let outw := v3_of (multiply_matrix_vector 3 (l9 (rotp a)) (l3 (trap b))) in
  Mo outW (frac3 D (add3 outw (trap a))).

(** 51-62: [inverse]; [outW{}] stays zero when the matrix has no inverse. *)
Definition motion_inv (D : Z) (a : motion) : motion :=
  let outW := match matrix_inverse (l9 (rotp a)) 3 with
              | Some l => m3_of l
              | None => M3 0 0 0 0 0 0 0 0 0
              end in
  let outw := v3_of (multiply_matrix_vector 3 (l9 outW) (l3 (trap a))) in
  Mo outW (frac3 D (V3 (v0 outw * -1) (v1 outw * -1) (v2 outw * -1))).

(** 63-83: [move_point] (the point in units of 1/D as the translation),
    [move_vector], [move_axial]. *)
Definition move_point (a : motion) (p : v3) : v3 :=
  add3 (v3_of (multiply_matrix_vector 3 (l9 (rotp a)) (l3 p))) (trap a).
Definition move_vector (a : motion) (v : v3) : v3 :=
  v3_of (multiply_matrix_vector 3 (l9 (rotp a)) (l3 v)).
Definition move_axial (a : motion) (v : v3) : v3 :=
  let o := move_vector a v in
  let d := matrix_determinant (l9 (rotp a)) 3 in
  if negb (1 =? d) then V3 (v0 o * d) (v1 o * d) (v2 o * d) else o.

(** 88-98: [operator==]; [T(0.5) - std::abs(d - std::floor(d) - T(0.5))]
    scaled by 2D is [D - |2 (d mod D) - D|]. *)
Definition near0 (D d : Z) : bool := (D - Z.abs (2 * (d mod D) - D) =? 0).
Definition m3_eqb (a b : m3) : bool :=
  (m00 a =? m00 b) && (m01 a =? m01 b) && (m02 a =? m02 b) &&
  (m10 a =? m10 b) && (m11 a =? m11 b) && (m12 a =? m12 b) &&
  (m20 a =? m20 b) && (m21 a =? m21 b) && (m22 a =? m22 b).
Definition motion_eqb (D : Z) (a b : motion) : bool :=
  (near0 D (v0 (trap b) - v0 (trap a)) && near0 D (v1 (trap b) - v1 (trap a)) &&
   near0 D (v2 (trap b) - v2 (trap a))) && m3_eqb (rotp a) (rotp b).

(** 108-115. *)
Definition has_identity_rotation (a : motion) : bool := m3_eqb (rotp a) I3.
Definition has_identity_translation (a : motion) : bool :=
  (v0 (trap a) =? 0) && (v1 (trap a) =? 0) && (v2 (trap a) =? 0).

(** The identity motion written out in src/symmetry.cpp 109, 127. *)
Definition motion_id : motion := Mo I3 (V3 0 0 0).
