(** Specification vocabulary for the hull of two polyhedra. *)
From Coq Require Import QArith.
From Verif Require Import Base QPoint CutSpec.

(** [c] is a convex polyhedron within each convex polyhedron that has all points of [p] and [q],
    as the hull of the two is. *)
Record within_hull (p q c : list q3 * list (list nat)) : Prop := {
  h_convex : convex (fst c) (snd c);
  h_faces : snd c <> [];
  h_least : forall v f, convex v f -> (forall x, inside (fst p) (snd p) x -> inside v f x) -> (forall x, inside (fst q) (snd q) x -> inside v f x) ->
    forall x, inside (fst c) (snd c) x -> inside v f x
}.
