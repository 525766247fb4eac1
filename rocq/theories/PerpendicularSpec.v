(** Specification vocabulary for integer vectors perpendicular to each other. *)
From Coq Require Import ZArith.
From Verif Require Import Base MatSpec.
Local Open Scope Z_scope.

Definition zdot (x y : v3) : Z := v0 x * v0 y + v1 x * v1 y + v2 x * v2 y.
Definition zcross (x y : v3) : v3 := V3 (v1 x * v2 y - v2 x * v1 y) (v2 x * v0 y - v0 x * v2 y) (v0 x * v1 y - v1 x * v0 y).
Definition across (u w : v3) : Prop := w <> V3 0 0 0 /\ zdot u w = 0.
(** One of the shortest vectors with the property. *)
Definition shortest (P : v3 -> Prop) (x : v3) : Prop := P x /\ forall w, P w -> zdot x x <= zdot w w.
