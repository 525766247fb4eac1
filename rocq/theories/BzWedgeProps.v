(** Theorem for claim C78 in properties.jsonl: points that no operation moves into the wedge. *)
From Coq Require Import QArith Lqa.
From Verif Require Import Base MatSpec PrimitiveModel PrimitiveSpec BzMoveModel BzMoveSpec BzMoveProofs BzWedgeProofs BzMoveProps.
Local Open Scope nat_scope.

(** Where there is no exception, such a point leaves in its place whatever the output held before, and then
    everything in the output is in the wedge: the exception is missed if the old content happens to be there. *)
Theorem wedge_move_kept : forall z l Qs old res, In I3 (ops z) -> length old = length Qs ->
  ir_moveinto_wedge z l Qs old = Ok res ->
  forall k p, nth_error Qs k = Some p -> ~ reachable z p ->
  nth_error res k = nth_error old k /\ forall o, In o res -> in_wedge (negb (no_ir_mirroring z)) (wedge z) (fst o).
Proof. exact wedge_kept_proof. Qed.
Print Assumptions wedge_move_kept.
(** Without old content in the wedge there is the exception, even if other points are moved. *)
Example wedge_move_kept_example : let z := cube B_P true [(0, 0, 1)%Q] in
  ~ reachable z (0, 0, -(1))%Q /\
  ir_moveinto_wedge z Conventional [(0, 0, -(1)); (0, 0, 1)]%Q [((0, 0, 0)%Q, 7); ((0, 0, 0)%Q, 8)] =
    Ok [((0, 0, 0)%Q, 7); ((0, 0, 1)%Q, 0)] /\
  ir_moveinto_wedge z Conventional [(0, 0, -(1)); (0, 0, 1)]%Q [((0, 0, -(2))%Q, 7); ((0, 0, 0)%Q, 8)] = Throw.
Proof.
  cbv zeta. split; [|split; vm_compute; reflexivity]. intros [[H|[H _]]|(r & Hr & [H|[H _]])]; try discriminate H.
  - specialize (H _ (or_introl eq_refl)). vm_compute in H. now apply H.
  - specialize (H _ (or_introl eq_refl)). destruct Hr as [<-|[<-|[]]]; vm_compute in H; now apply H.
Qed.
