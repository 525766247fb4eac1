(** Motions up to lattice translations. *)
From Verif Require Import Base MatSpec MotionModel.
Local Open Scope Z_scope.

(** Points, in units of 1/D, that differ by a lattice vector. *)
Definition same_place (D : Z) (x y : v3) : Prop :=
  (D | v0 x - v0 y) /\ (D | v1 x - v1 y) /\ (D | v2 x - v2 y).

(** What a motion does to a point. *)
Definition image (a : motion) (p : v3) : v3 :=
  V3 (m00 (rotp a) * v0 p + m01 (rotp a) * v1 p + m02 (rotp a) * v2 p + v0 (trap a))
     (m10 (rotp a) * v0 p + m11 (rotp a) * v1 p + m12 (rotp a) * v2 p + v1 (trap a))
     (m20 (rotp a) * v0 p + m21 (rotp a) * v1 p + m22 (rotp a) * v2 p + v2 (trap a)).

(** The same motion up to a lattice translation. *)
Definition same_motion (D : Z) (a b : motion) : Prop :=
  rotp a = rotp b /\ same_place D (trap a) (trap b).

(** Translation components in [0,1). *)
Definition reduced (D : Z) (a : motion) : Prop :=
  0 <= v0 (trap a) < D /\ 0 <= v1 (trap a) < D /\ 0 <= v2 (trap a) < D.

Definition unimodular (a : m3) : Prop := det3 a = 1 \/ det3 a = -1.
