(** Model of the conversion between conventional and primitive cells: PrimitiveTransform
    (src/primitive.hpp), transform_to_primitive and transform_from_primitive
    (src/transform.hpp 46-154; the parallel versions compute the same rows) and
    Impl::primitive (src/lattice_dual.hpp 735-771).  Floating-point components are
    rationals; a vector is a triple, a matrix the list of its nine elements in row order. *)
From Coq Require Import QArith.
From Verif Require Import Base.
Local Open Scope Z_scope.

(** src/bravais.hpp 54. *)
Inductive bravais := B_none | B_P | B_A | B_B | B_C | B_I | B_F | B_R.
(** The units of src/enums.hpp 37 that are implemented here. *)
Inductive unit := Angstrom | InverseAngstrom | OtherUnit.

(** src/primitive.hpp 112-123. *)
Definition get_6P (b : bravais) : outcome (list Z) :=
  match b with
  | B_none => Throw
  | B_I => Ok [-3; 3; 3;  3; -3; 3;  3; 3; -3]
  | B_F => Ok [0; 3; 3;  3; 0; 3;  3; 3; 0]
  | B_A => Ok [6; 0; 0;  0; 3; -3;  0; 3; 3]
  | B_B => Ok [3; 0; -3;  0; 6; 0;  3; 0; 3]
  | B_C => Ok [3; 3; 0; -3; 3; 0;  0; 0; 6]
  | B_R => Ok [4; -2; -2;  2; 2; -4;  2; 2; 2]
  | B_P => Ok [6; 6; 6; 6; 6; 6; 6; 6; 6]
  end.
(** 135-146. *)
Definition get_invP (b : bravais) : outcome (list Z) :=
  match b with
  | B_none => Throw
  | B_I => Ok [0; 1; 1;  1; 0; 1;  1; 1; 0]
  | B_F => Ok [-1; 1; 1;  1; -1; 1;  1; 1; -1]
  | B_A => Ok [1; 0; 0;  0; 1; 1;  0; -1; 1]
  | B_B => Ok [1; 0; 1;  0; 1; 0; -1; 0; 1]
  | B_C => Ok [1; -1; 0;  1; 1; 0;  0; 0; 1]
  | B_R => Ok [1; 0; 1; -1; 1; 1;  0; -1; 1]
  | B_P => Ok [1; 0; 0; 0; 1; 0; 0; 0; 1]
  end.
(** src/linear_algebra.hpp 18-20; primitive.hpp 169, 179. *)
Definition transpose9 {A} (a : list A) : list A :=
  match a with
  | [a0; a1; a2; a3; a4; a5; a6; a7; a8] => [a0; a3; a6; a1; a4; a7; a2; a5; a8]
  | _ => a
  end.
Definition get_6Pt (b : bravais) : outcome (list Z) := bind (get_6P b) (fun m => Ok (transpose9 m)).
Definition get_invPt (b : bravais) : outcome (list Z) := bind (get_invP b) (fun m => Ok (transpose9 m)).
(** 196. *)
Definition does_nothing (b : bravais) : bool := match b with B_P => true | _ => false end.

(** multiply_matrix_vector (src/utilities.tpp 39-44) for three dimensions, for any type of
    number; [cast] converts the integer elements. *)
Definition mat_vec {A} (zero : A) (add mul : A -> A -> A) (cast : Z -> A) (m : list Z) (v : A * A * A) : A * A * A :=
  let '(x, y, z) := v in
  let e i := cast (nth i m 0) in
  let row i := add (add (add zero (mul (e i) x)) (mul (e (i + 1)%nat) y)) (mul (e (i + 2)%nat) z) in
  (row 0%nat, row 3%nat, row 6%nat).
Definition qvec := (Q * Q * Q)%type.
Definition zvec := (Z * Z * Z)%type.
Definition qmat_vec := mat_vec 0%Q Qplus Qmult inject_Z.
Definition zmat_vec := mat_vec 0 Z.add Z.mul (fun z => z).
Definition map3 {A} (f : A -> A) (v : A * A * A) : A * A * A := let '(x, y, z) := v in (f x, f y, f z).

(** src/transform.hpp 46-97, for one row of a vector which is in the conventional lattice
    and not already in the primitive one; [mv] is the product and [six] the division by 6. *)
Definition to_primitive {A} (mv : list Z -> A * A * A -> A * A * A) (six : A -> A)
    (b : bravais) (u : unit) (v : A * A * A) : outcome (A * A * A) :=
  if does_nothing b then Ok v
  else match u with
       | Angstrom => bind (get_invP b) (fun m => Ok (mv m v))
       | InverseAngstrom => bind (get_6Pt b) (fun m => Ok (map3 six (mv m v)))
       | OtherUnit => Throw
       end.
(** 108-154. *)
Definition from_primitive {A} (mv : list Z -> A * A * A -> A * A * A) (six : A -> A)
    (b : bravais) (u : unit) (v : A * A * A) : outcome (A * A * A) :=
  if does_nothing b then Ok v
  else match u with
       | Angstrom => bind (get_6P b) (fun m => Ok (map3 six (mv m v)))
       | InverseAngstrom => bind (get_invPt b) (fun m => Ok (mv m v))
       | OtherUnit => Throw
       end.
Definition q_to := to_primitive qmat_vec (fun q => (q / 6)%Q).
Definition q_from := from_primitive qmat_vec (fun q => (q / 6)%Q).
(** Integer components: the division truncates. *)
Definition z_to := to_primitive zmat_vec (fun z => Z.quot z 6).
Definition z_from := from_primitive zmat_vec (fun z => Z.quot z 6).

(** linear_algebra::mul_mat_mat (src/linear_algebra.hpp 71-80) of a rational with an integer
    matrix, for three dimensions. *)
Definition qmat_mat (a : list Q) (m : list Z) : list Q :=
  map (fun ij => let i := fst ij in let j := snd ij in
         (0 + nth (i * 3) a 0 * inject_Z (nth j m 0%Z) + nth (i * 3 + 1) a 0 * inject_Z (nth (3 + j) m 0%Z)
            + nth (i * 3 + 2) a 0 * inject_Z (nth (6 + j) m 0%Z))%Q)
      [(0, 0); (0, 1); (0, 2); (1, 0); (1, 1); (1, 2); (2, 0); (2, 1); (2, 2)]%nat.
(** src/lattice_dual.hpp 735-771: the basis vectors, as columns, of the primitive lattice. *)
Definition primitive_vectors (b : bravais) (real recip : list Q) : outcome (list Q * list Q) :=
  if does_nothing b then Ok (real, recip)
  else bind (get_6P b) (fun p => bind (get_invPt b) (fun ip =>
         Ok (map (fun q => (q / 6)%Q) (qmat_mat real p), qmat_mat recip ip))).
