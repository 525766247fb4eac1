(** 3x3 integer matrices and vectors as mathematical objects, with their usual
    algebra written out. *)
From Verif Require Import Base.
Local Open Scope Z_scope.

Record v3 := V3 { v0 : Z; v1 : Z; v2 : Z }.
Record m3 := M3 { m00 : Z; m01 : Z; m02 : Z; m10 : Z; m11 : Z; m12 : Z; m20 : Z; m21 : Z; m22 : Z }.

(** Layout in memory: row after row. *)
Definition l9 (a : m3) : list Z :=
  [m00 a; m01 a; m02 a; m10 a; m11 a; m12 a; m20 a; m21 a; m22 a].
Definition l3 (a : v3) : list Z := [v0 a; v1 a; v2 a].

Definition I3 : m3 := M3 1 0 0 0 1 0 0 0 1.
Definition scale3 (k : Z) (a : m3) : m3 :=
  M3 (k * m00 a) (k * m01 a) (k * m02 a) (k * m10 a) (k * m11 a) (k * m12 a)
     (k * m20 a) (k * m21 a) (k * m22 a).
Definition mul3 (a b : m3) : m3 :=
  M3 (m00 a * m00 b + m01 a * m10 b + m02 a * m20 b)
     (m00 a * m01 b + m01 a * m11 b + m02 a * m21 b)
     (m00 a * m02 b + m01 a * m12 b + m02 a * m22 b)
     (m10 a * m00 b + m11 a * m10 b + m12 a * m20 b)
     (m10 a * m01 b + m11 a * m11 b + m12 a * m21 b)
     (m10 a * m02 b + m11 a * m12 b + m12 a * m22 b)
     (m20 a * m00 b + m21 a * m10 b + m22 a * m20 b)
     (m20 a * m01 b + m21 a * m11 b + m22 a * m21 b)
     (m20 a * m02 b + m21 a * m12 b + m22 a * m22 b).
Definition act3 (a : m3) (x : v3) : v3 :=
  V3 (m00 a * v0 x + m01 a * v1 x + m02 a * v2 x)
     (m10 a * v0 x + m11 a * v1 x + m12 a * v2 x)
     (m20 a * v0 x + m21 a * v1 x + m22 a * v2 x).
Definition trans3 (a : m3) : m3 :=
  M3 (m00 a) (m10 a) (m20 a) (m01 a) (m11 a) (m21 a) (m02 a) (m12 a) (m22 a).
Definition dot3 (x y : v3) : Z := v0 x * v0 y + v1 x * v1 y + v2 x * v2 y.
Definition cross3 (x y : v3) : v3 :=
  V3 (v1 x * v2 y - v2 x * v1 y) (v2 x * v0 y - v0 x * v2 y) (v0 x * v1 y - v1 x * v0 y).
Definition tr3 (a : m3) : Z := m00 a + m11 a + m22 a.

(** The determinant as the triple product of the rows. *)
Definition row0 (a : m3) := V3 (m00 a) (m01 a) (m02 a).
Definition row1 (a : m3) := V3 (m10 a) (m11 a) (m12 a).
Definition row2 (a : m3) := V3 (m20 a) (m21 a) (m22 a).
Definition det3 (a : m3) : Z := dot3 (row0 a) (cross3 (row1 a) (row2 a)).

(** Powers. *)
Fixpoint pow3 (a : m3) (n : nat) : m3 :=
  match n with O => I3 | S k => mul3 a (pow3 a k) end.

(** Sum of f k for k < n. *)
Fixpoint sumn (f : nat -> Z) (n : nat) : Z :=
  match n with O => 0 | S k => sumn f k + f k end.
