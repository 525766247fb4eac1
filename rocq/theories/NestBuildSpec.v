(** Vocabulary for the construction of nests. *)
From Coq Require Import QArith.
From Verif Require Import Base WeightsModel WeightsSpec NestBuildModel.
Local Open Scope Q_scope.

(** The convex hull: every half space that holds all the points holds [x]. *)
Definition hull (ps : list point) (x : point) : Prop :=
  forall a b c d, (forall p, In p ps -> 0 <= affine a b c d p) -> 0 <= affine a b c d x.
(** Four of the points are not in one plane. *)
Definition spans (ps : list point) : Prop :=
  exists a b c d, In a ps /\ In b ps /\ In c ps /\ In d ps /\ ~ det3 (minus a d) (minus b d) (minus c d) == 0.
Definition same_place (p q : point) : Prop := px p == px q /\ py p == py q /\ pz p == pz q.
Definition distinct (ps : list point) : Prop :=
  forall i j p q, nth_error ps i = Some p -> nth_error ps j = Some q -> same_place p q -> i = j.
(** The tetrahedra with corners among the points of the mesh fill the hull of [ps] and have
    a volume, the points are in the hull and all different. *)
Definition divides (ps : list point) (m : mesh) : Prop :=
  (forall t, In t (tetrahedra m) -> exists a b c d, corners (Tet t (0, 0, 0) 0 0) (points m) a b c d /\
     ~ det3 (minus a d) (minus b d) (minus c d) == 0) /\
  distinct (points m) /\
  (forall p, In p (points m) -> hull ps p) /\
  (forall x, hull ps x -> exists t, In t (tetrahedra m) /\ in_tet (Tet t (0, 0, 0) 0 0) (points m) x).
(** What is expected of TetGen: it divides the hull of points that are not in one plane or
    throws an exception, and the spheres hold their tetrahedra. *)
Definition tools_ok (tl : tools) : Prop :=
  (forall ps v, spans ps -> match tetgen tl ps v with Ok m => divides ps m | Throw => True | _ => False end) /\
  (forall a b c d, let (z, r) := sphere tl a b c d in Forall (fun p => dist2 p z <= r * r) [a; b; c; d]).
(** All leaves are small or have [k] levels of branches above them. *)
Fixpoint small (mv : Q) (n : nest) (k : nat) : Prop :=
  let 'Nest b l := n in
  (l = [] /\ (vol b <= mv \/ k = 0%nat)) \/
  (l <> [] /\ exists j, k = S j /\ fold_right (fun m r => small mv m j /\ r) True l).
(** [t] is a leaf of the nest. *)
Inductive leaf_of : nest -> tet -> Prop :=
| leaf_here b : leaf_of (Nest b []) b
| leaf_below b l m t : In m l -> leaf_of m t -> leaf_of (Nest b l) t.
(** TetGen makes at least one tetrahedron and none larger than the volume it was given. *)
Definition within_limit (tl : tools) : Prop :=
  (forall ps v m, tetgen tl ps v = Ok m -> tetrahedra m <> []) /\
  (forall ps v m t a b c d, tetgen tl ps (Some v) = Ok m -> In t (tetrahedra m) -> corners (Tet t (0, 0, 0) 0 0) (points m) a b c d ->
    - (6 * v) <= det3 (minus a d) (minus b d) (minus c d) <= 6 * v).
