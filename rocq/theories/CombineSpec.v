(** Specification vocabulary for putting polyhedra together. *)
From Coq Require Import QArith.
From Verif Require Import Base QPoint CutSpec.
Local Open Scope nat_scope.

(** No inner point in common. *)
Definition apart (p : list q3) (F : list (list nat)) (q : list q3) (G : list (list nat)) : Prop :=
  forall x, strictly_inside p F x -> strictly_inside q G x -> False.
(** A corner that is a corner of the other face. *)
Definition meets (p : list q3) (i : nat) (q : list q3) (g : list nat) : Prop := exists j, In j g /\ same_place (place p i) (place q j).
(** The faces have the same corners. *)
Definition coincide (p : list q3) (f : list nat) (q : list q3) (g : list nat) : Prop :=
  (forall i, In i f -> meets p i q g) /\ (forall j, In j g -> meets q j p f).
(** Faces with three corners in common have all in common. *)
Definition face_to_face (p : list q3) (F : list (list nat)) (q : list q3) (G : list (list nat)) : Prop :=
  forall f g, In f F -> In g G -> (exists a b c, In a f /\ In b f /\ In c f /\ a <> b /\ a <> c /\ b <> c /\ meets p a q g /\ meets p b q g /\ meets p c q g) -> coincide p f q g.
(** The same corners one after the other. *)
Definition same_polygon (p : list q3) (f : list nat) (r : list q3) (h : list nat) : Prop := Forall2 (fun i k => same_place (place p i) (place r k)) f h.
