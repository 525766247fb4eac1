(** Vocabulary for the volumes of the levels of a nest. *)
From Coq Require Import QArith.
From Verif Require Import Base WeightsModel WeightsSpec NestBuildModel.
Local Open Scope Q_scope.

Definition node (n : nest) : tet := let 'Nest b _ := n in b.
(** The branches are no larger than [limit left], those below no larger than [limit (left - 1)]
    and so on. *)
Fixpoint levels (limit : nat -> Q) (left : nat) (n : nest) : Prop :=
  let 'Nest _ l := n in fold_right (fun m r => (vol (node m) <= limit left /\ levels limit (left - 1) m) /\ r) True l.
(** The largest volume of the tetrahedra of a mesh, in whatever order their corners are. *)
Definition mesh_largest (m : mesh) (q : Q) : Prop :=
  (exists t a b c d, In t (tetrahedra m) /\ corners (Tet t (0, 0, 0) 0 0) (points m) a b c d /\
     (det3 (minus a d) (minus b d) (minus c d) == 6 * q \/ det3 (minus a d) (minus b d) (minus c d) == - (6 * q))) /\
  (forall t a b c d, In t (tetrahedra m) -> corners (Tet t (0, 0, 0) 0 0) (points m) a b c d ->
     - (6 * q) <= det3 (minus a d) (minus b d) (minus c d) <= 6 * q).
