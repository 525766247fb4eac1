(** Vocabulary for points inside tetrahedra. *)
From Coq Require Import QArith.
From Verif Require Import Base WeightsModel WeightsSpec.
Local Open Scope Q_scope.

(** The point is a mixture of all four corners. *)
Definition inside_tet (t : tet) (vs : list point) (x : point) : Prop :=
  exists a b c d, corners t vs a b c d /\
  exists p q r s, 0 < p /\ 0 < q /\ 0 < r /\ 0 < s /\ p + q + r + s == 1 /\
    px x == p * px a + q * px b + r * px c + s * px d /\
    py x == p * py a + q * py b + r * py c + s * py d /\
    pz x == p * pz a + q * pz b + r * pz c + s * pz d.
