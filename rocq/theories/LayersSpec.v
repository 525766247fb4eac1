(** Vocabulary for layers of tetrahedra. *)
From Coq Require Import QArith.
From Verif Require Import Base WeightsModel WeightsSpec NestBuildModel NestBuildSpec LayersModel.
Local Open Scope Q_scope.

Definition radii_ok (tl : tools) : Prop := forall a b c d, 0 <= snd (sphere tl a b c d).
(** The tetrahedra fill the hull of [poly] and have their volumes and spheres, the vertices
    are different and in the hull, and each is listed with its tetrahedra. *)
Record layer_ok (poly : list point) (l : layer) : Prop := {
  l_tets : forall t, In t (ltets l) -> tet_ok t (lpoints l) /\ 0 <= radius t;
  l_fill : forall x, hull poly x -> exists t, In t (ltets l) /\ in_tet t (lpoints l) x;
  l_distinct : distinct (lpoints l);
  l_within : forall p, In p (lpoints l) -> hull poly p;
  l_listed : forall v, (v < length (lpoints l))%nat -> exists is, nth_error (used_by l) v = Some is /\
    forall i, In i is <-> exists t, nth_error (ltets l) i = Some t /\ In v (tet_indices t) }.
(** Two different corners of one tetrahedron. *)
Definition joined (l : layer) (u v : nat) : Prop :=
  u <> v /\ exists t, In t (ltets l) /\ In u (tet_indices t) /\ In v (tet_indices t).
Definition largest (l : layer) (q : Q) : Prop := (exists t, In t (ltets l) /\ vol t = q) /\ forall t, In t (ltets l) -> vol t <= q.
Definition smallest (l : layer) (q : Q) : Prop := (exists t, In t (ltets l) /\ vol t = q) /\ forall t, In t (ltets l) -> q <= vol t.
(** A vertex in a tetrahedron is one of its corners. *)
Definition conforming (l : layer) : Prop := forall t v p, In t (ltets l) -> nth_error (lpoints l) v = Some p -> in_tet t (lpoints l) p -> In v (tet_indices t).
