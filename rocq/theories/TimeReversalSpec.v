(** Specification vocabulary for point groups and space inversion. *)
From Coq Require Import List Permutation.
From Verif Require Import Base MatSpec MotionModel MotionSpec SymmetrySpec.
Import ListNotations.

Definition m3_dec (a b : m3) : {a = b} + {a <> b}.
Proof. repeat decide equality. Defined.
Definition opposite (r : m3) : m3 := scale3 (-1) r.
(** The first occurrence of every element. *)
Fixpoint firsts (l : list m3) : list m3 :=
  match l with [] => [] | x :: t => x :: filter (fun y => if m3_dec x y then false else true) (firsts t) end.

Definition point_group (l : list m3) : Prop :=
  closed m3 mul3 eq I3 l /\ forall x, In x l -> exists y, In y l /\ mul3 x y = I3 /\ mul3 y x = I3.
Definition inversion_at_origin : motion := Mo (opposite I3) (V3 0 0 0).

(** A list put into some other order. *)
Definition reorders (sort : list m3 -> list m3) : Prop := forall l, Permutation l (sort l).
(** The order of the rotation, or of the rotation without its inversion. *)
Definition rotation_part (r : m3) : m3 := scale3 (det3 r) r.
Definition has_rotation_order (k : nat) (r : m3) : bool :=
  (if m3_dec (pow3 (rotation_part r) k) I3 then true else false) &&
  forallb (fun j => if m3_dec (pow3 (rotation_part r) j) I3 then false else true) (seq 1 (k - 1)).
(** Operations of the orders a crystal may have, by order, those of the same order as they were. *)
Definition by_order (l : list m3) : list m3 := flat_map (fun k => filter (has_rotation_order k) l) [1; 2; 3; 4; 6].
