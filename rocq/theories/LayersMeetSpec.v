(** Vocabulary for the tetrahedra of two layers. *)
From Coq Require Import QArith.
From Verif Require Import Base WeightsModel WeightsSpec NestInsideSpec LayersModel.

(** A corner of [u] is in [t], or the two have inner points in common. *)
Definition meets (h : layer) (t : tet) (l : layer) (u : tet) : Prop :=
  (exists k p, In k (tet_indices u) /\ nth_error (lpoints l) k = Some p /\ in_tet t (lpoints h) p) \/
  (exists x, inside_tet t (lpoints h) x /\ inside_tet u (lpoints l) x).
