(** Model of the cosines and sines of angles, src/math.hpp, and of what the constructors of
    lattices make of angles, src/lattice_dual.hpp 88-108.

    Numbers are real numbers and computed exactly. *)
From Coq Require Import Reals ZArith.
From Verif Require Import Base Array2Model.
Local Open Scope outcome_scope.
Local Open Scope R_scope.

Definition eqb (x y : R) : bool := if Req_EM_T x y then true else false.
Definition ltb (x y : R) : bool := if Rlt_dec x y then true else false.

(** src/math.hpp 40-43. *)
Definition degree_to_radian (d : R) : R := d / 180 * PI.
(** The nearest integer, of two the even one. *)
Definition nearest (x : R) : Z :=
  let f := Int_part x in
  if ltb (x - IZR f) (1/2) then f
  else if ltb (1/2) (x - IZR f) then (f + 1)%Z
  else if Z.even f then f else (f + 1)%Z.
(** std::remquo: the remainder and the last bits of the quotient, for numbers that are not
    negative. How many bits, at least three, is up to the implementation: [bits]. *)
Definition remquo (bits : nat) (x y : R) : R * Z :=
  let n := nearest (x / y) in
  (x - IZR n * y, (n mod 2 ^ Z.of_nat bits)%Z).
(** src/math.hpp 46-62 for finite numbers. *)
Definition cosd (bits : nat) (d : R) : R :=
  let (d90, q) := remquo bits (Rabs d) 90 in
  let r := degree_to_radian d90 in
  match Z.rem q 4 with
  | 0%Z => cos r
  | 1%Z => sin (- r + 0)
  | 2%Z => - cos r
  | 3%Z => sin (r + 0)
  | _ => 0
  end.
(** src/math.hpp 65-82; the recursion is unfolded once, the argument of the inner call is
    not negative. *)
Definition sind_pos (bits : nat) (d : R) : R :=
  let (d90, q) := remquo bits (Rabs d) 90 in
  let r := degree_to_radian d90 in
  match Z.rem q 4 with
  | 0%Z => sin (r * 1)
  | 1%Z => cos r
  | 2%Z => sin (- r * 1)
  | 3%Z => - cos r
  | _ => 0
  end.
Definition sind (bits : nat) (d : R) : R := if ltb d 0 then - sind_pos bits (- d) else sind_pos bits d.
(** src/math.hpp 93-101; the constants are 24-38. *)
Definition cos_and_sin (r : R) : R * R :=
  if eqb 0 r then (1, 0)
  else if eqb (PI / 3) r then (1 / 2, sqrt 3 / 2)
  else if eqb (acos 0) r then (0, 1)
  else if eqb (2 * PI / 3) r then (- (1 / 2), sqrt 3 / 2)
  else if eqb PI r then (-1, 0)
  else (cos r, sin r).
(** src/math.hpp 103-115. *)
Definition cos_and_sin_d (bits : nat) (d : R) : R * R :=
  if eqb 0 d then (1, 0)
  else if eqb 30 d then (sqrt 3 / 2, 1 / 2)
  else if eqb 45 d then (sqrt 2 / 2, sqrt 2 / 2)
  else if eqb 60 d then (1 / 2, sqrt 3 / 2)
  else if eqb 90 d then (0, 1)
  else if eqb 120 d then (- (1 / 2), sqrt 3 / 2)
  else if eqb 135 d then (- (sqrt 2 / 2), sqrt 2 / 2)
  else if eqb 150 d then (- (sqrt 3 / 2), 1 / 2)
  else if eqb 180 d then (-1, 0)
  else (cosd bits d, sind bits d).

(** src/enums.hpp 32. *)
Inductive angle_unit := NotProvided | Radian | Degree | Pi.
(** std::array<T,3>. *)
Record r3 := R3 { rx : R; ry : R; rz : R }.
Definition map_r3 (f : R -> R * R) (a : r3) : r3 * r3 :=
  (R3 (fst (f (rx a))) (fst (f (ry a))) (fst (f (rz a))), R3 (snd (f (rx a))) (snd (f (ry a))) (snd (f (rz a)))).
(** src/lattice_dual.hpp 88-108. *)
Definition to_cosines_sines (bits : nat) (a : r3) (u : angle_unit) : outcome (r3 * r3) :=
  let least := Rmin (rx a) (Rmin (ry a) (rz a)) in
  let most := Rmax (rx a) (Rmax (ry a) (rz a)) in
  let* u := match u with
       | NotProvided => if ltb least 0 then Throw else Ok (if ltb most PI then Radian else Degree)
       | _ => Ok u
       end in
  Ok (map_r3 (match u with Degree => cos_and_sin_d bits | Radian => cos_and_sin | _ => fun x => cos_and_sin (PI * x) end) a).
