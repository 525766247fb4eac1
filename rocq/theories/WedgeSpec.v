(** Specification vocabulary for the irreducible wedge. *)
From Coq Require Import QArith.
From Verif Require Import Base QPoint CutSpec ZoneSpec ApplySpec.

(** The part of the polyhedron is what is on the inner side of the planes through the origin. *)
Definition delimits (ns : list q3) (pts : list q3) (faces : list (list nat)) (v : list q3) (part : list (list nat)) : Prop :=
  forall x, inside pts faces x -> inside v part x <-> forall n, In n ns -> (0 <= dot n x)%Q.
(** It was cut from the polyhedron by planes through the origin. *)
Definition wedge_of (pts : list q3) (faces : list (list nat)) (v : list q3) (part : list (list nat)) : Prop :=
  exists ts, (forall t, In t ts -> proper t /\ (ahead t origin == 0)%Q) /\
    forall x, inside v part x <-> inside pts faces x /\ forall t, In t ts -> (ahead t x <= 0)%Q.
(** The images of the part fill the polyhedron without overlaps. *)
Record irreducible (b : q3 * q3 * q3) (ps : list MatSpec.m3) (pts : list q3) (faces : list (list nat)) (v : list q3) (part : list (list nat)) : Prop := {
  i_convex : convex v part;
  i_part : part <> [];
  i_within : forall x, inside v part x -> inside pts faces x;
  i_covers : covered b ps pts faces v part;
  i_disjoint : disjoint b ps v part
}.
