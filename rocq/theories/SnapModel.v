(** Model of how lengths and angles are made to obey the symmetry, src/lattice_dual.hpp 310-385,
    and of src/pointsymmetry.cpp 480-497. *)
From Coq Require Import Reals ZArith.
From Verif Require Import Base Array2Model MatSpec SymmetryModel AngleModel LatticeModel OrientModel.
Local Open Scope outcome_scope.
Local Open Scope R_scope.

(** src/pointsymmetry.cpp 480-497; the columns and rows of mul_mat_vec and mul_vec_mat. *)
Definition z3 := (Z * Z * Z)%type.
Definition z3_eqb (a b : z3) : bool :=
  let '(a0, a1, a2) := a in let '(b0, b1, b2) := b in (Z.eqb a0 b0 && Z.eqb a1 b1 && Z.eqb a2 b2)%bool.
Definition mat_vec_links (ops : list m3) (a b : z3) : bool :=
  existsb (fun r => let '(x, y, z) := a in
    z3_eqb (x * m00 r + y * m01 r + z * m02 r, x * m10 r + y * m11 r + z * m12 r, x * m20 r + y * m21 r + z * m22 r)%Z b) ops.
Definition vec_mat_links (ops : list m3) (a b : z3) : bool :=
  existsb (fun r => let '(x, y, z) := a in
    z3_eqb (x * m00 r + y * m10 r + z * m20 r, x * m01 r + y * m11 r + z * m21 r, x * m02 r + y * m12 r + z * m22 r)%Z b) ops.
Definition eis (i : nat) : z3 := match i with O => (1, 0, 0)%Z | S O => (0, 1, 0)%Z | _ => (0, 0, 1)%Z end.

Definition get3 (a : r3) (i : nat) : R := match i with O => rx a | S O => ry a | _ => rz a end.
Definition set3 (a : r3) (i : nat) (x : R) : r3 :=
  match i with O => R3 x (ry a) (rz a) | S O => R3 (rx a) x (rz a) | _ => R3 (rx a) (ry a) x end.
(** 312-313 *)
Definition equal2 (x y : R) : R := if eqb x y then x else (x + y) / 2.
Definition equal3 (x y z : R) : R := if (eqb x y && eqb y z)%bool then x else (x + y + z) / 3.
Definition is_P (b : bravais) : bool := match b with bravP => true | _ => false end.
Definition is_R (b : bravais) : bool := match b with bravR => true | _ => false end.
Definition state := (r3 * r3 * r3)%type.
(** A cosine and its sine for two angles, 352-354 and 369-370. *)
Definition level (right : bool) (i j : nat) (c s : r3) : outcome (r3 * r3) :=
  let x := if right then 0 else equal2 (get3 c i) (get3 c j) in
  let* y := if right then Ok 1 else rsqrt (1 - x * x) in
  Ok (set3 (set3 c j x) i x, set3 (set3 s j y) i y).

Section Snap.
Variables (bits : nat) (centring : bravais) (ops : list m3) (is_real : bool).
(** 323-338 *)
Definition hint : bool := negb (is_P centring).
Definition second_hint : bool := (hint && negb (is_R centring))%bool.
Definition direct (i : nat) : bool := mat_vec_links ops (eis i) (eis ((i + 1) mod 3)).
Definition inverse (i : nat) : bool := vec_mat_links ops (eis i) (eis ((i + 1) mod 3)).
Definition main (i : nat) : bool := if is_real then direct i else inverse i.
Definition dual (i : nat) : bool := if is_real then inverse i else direct i.
(** 351-355 *)
Definition dual_step (st : state) (i : nat) : outcome state :=
  let '(v, c, s) := st in
  if dual i then let* (c, s) := level second_hint i ((i + 1) mod 3) c s in Ok (v, c, s) else Ok st.
(** 356-373 *)
Definition main_step (st : state) (i : nat) : outcome state :=
  let '(v, c, s) := st in
  if main i then
    let j := (i + 1) mod 3 in
    let x := equal2 (get3 v i) (get3 v j) in
    let v := set3 (set3 v j x) i x in
    if (dual 0 && dual 1)%bool then Throw
    else if existsb (fun k => (negb (Nat.eqb k i) && dual k)%bool) [0; 1; 2]%nat then Throw
    else if dual i then
      let k := (i + 2) mod 3 in
      let (c, s) := if (hint && is_R centring)%bool
                    then let (ck, sk) := cos_and_sin_d bits (if is_real then 120 else 60) in (set3 c k ck, set3 s k sk)
                    else (c, s) in
      let* (c, s) := level hint i j c s in Ok (v, c, s)
    else Ok (v, c, s)
  else Ok st.
Definition snapped (v c s : r3) : outcome state :=
  if (main 0 && main 1)%bool then
    let x := equal3 (rx v) (ry v) (rz v) in
    let v := R3 x x x in
    if (dual 0 && dual 1)%bool then
      let y := if hint then 0 else equal3 (rx c) (ry c) (rz c) in
      let* z := if hint then Ok 1 else rsqrt (1 - y * y) in
      Ok (v, R3 y y y, R3 z z z)
    else foldM dual_step [0; 1; 2]%nat (v, c, s)
  else foldM main_step [0; 1; 2]%nat (v, c, s).
(** 310-385; the comparison with zero is exact. *)
Definition snap_to_symmetry (v c s : r3) : outcome (bool * state) :=
  let* st := snapped v c s in
  let '(v', c', _) := st in
  let differs a b := existsb (fun i => negb (eqb (get3 a i - get3 b i) 0)) [0; 1; 2]%nat in
  Ok ((main 0 || main 1 || main 2) && (differs v v' || differs c c'), st)%bool.
(** 404-453: what takes the place of the two matrices. *)
Definition snap_vectors (real recip : mat) : outcome (mat * mat) :=
  let old := if is_real then real else recip in
  let* v := lengths old in
  let* a := angles old Radian in
  let* (c, s) := to_cosines_sines bits a Radian in
  let* (changed, st) := snap_to_symmetry v c s in
  if changed then
    let '(v, c, s) := st in
    let* new := reassemble old v c s in
    let other := map_mat (fun x => x * (2 * PI)) (transpose (mat_inverse new)) in
    Ok (if is_real then (new, other) else (other, new))
  else Ok (real, recip).
End Snap.
