(** Specification vocabulary for the special points of a polyhedron. *)
From Coq Require Import QArith.
From Verif Require Import Base QPoint CutSpec FacesSpec.

Definition total (l : list Q) : Q := fold_right Qplus 0%Q l.
(** [m] is the mean of the points. *)
Definition mean (pts : list q3) (m : q3) : Prop :=
  pts <> [] /\ let n := inject_Z (Z.of_nat (length pts)) in
  (qx m * n == total (map qx pts) /\ qy m * n == total (map qy pts) /\ qz m * n == total (map qz pts))%Q.
(** The points with these numbers. *)
Definition points_at (v : list q3) (is : list nat) (pts : list q3) : Prop :=
  Forall2 (fun i p => nth_error v i = Some p) is pts.
(** Each face has vertices, all of them there, and there are as many edges as for a closed surface
    without holes. *)
Definition closed_surface (v : list q3) (faces : list (list nat)) : Prop :=
  (forall f, In f faces -> f <> [] /\ forall i, In i f -> (i < length v)%nat) /\
  exists es, lists_edges faces es /\ (length es + 2 = length faces + length (nodup Nat.eq_dec (concat faces)))%nat.
