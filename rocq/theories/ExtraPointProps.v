(** Theorems about the points added by triangulation (C37). *)
From Verif Require Import Base ExtraPointModel VertexMapModel VertexMapSpec ExtraPointProofs.

(** As long as at most one worker meets points which are not yet in the list, every order of steps leaves
    every point at the number recorded for it.  (Missing: several workers, which is false, see below.) *)
Theorem extra_points_numbered_partial : forall (P : Type) (same : P -> P -> bool), (forall a, same a a = true) ->
  forall (v0 : list P) (progs : list (list (item P))) a sched,
  (forall k l p, k <> a -> nth_error progs k = Some l -> In (Point p) l -> exists i, holds same v0 p i) ->
  let st := run same sched (v0, map start progs) in
  finished st -> (forall w, In w (snd st) -> missed w = 0) ->
  forall w p i, In w (snd st) -> In (p, i) (numbers w) -> holds same (fst st) p i.
Proof. exact @numbers_proof. Qed.
Print Assumptions extra_points_numbered_partial.
(** Worker 1 adds two points while worker 0 looks up its own. *)
Example extra_points_example :
  let st := run Nat.eqb [1; 0; 1; 1; 0; 1; 1; 0; 1; 1; 1; 1] ([10; 11], map start [[Node 0; Point 11; Point 10]; [Node 2; Point 8; Point 9]]) in
  fst st = [10; 11; 8; 9] /\ map todo (snd st) = [[]; []] /\ map missed (snd st) = [0; 0] /\ map numbers (snd st) = [[(11, 1); (10, 0)]; [(8, 2); (9, 3)]].
Proof. vm_compute. auto. Qed.

(** Two workers which each add a point: the number of one leads to the point of the other ... *)
Theorem extra_points_numbered_refuted : exists (v0 : list nat) progs sched,
  let st := run Nat.eqb sched (v0, map start progs) in
  finished st /\ (forall w, In w (snd st) -> missed w = 0) /\
  exists w p i, In w (snd st) /\ In (p, i) (numbers w) /\ ~ holds Nat.eqb (fst st) p i.
Proof. exact numbers_race_proof. Qed.
Print Assumptions extra_points_numbered_refuted.
(** ... or a point is not in the list at all. *)
Theorem extra_points_kept_refuted : exists (v0 : list nat) progs sched,
  let st := run Nat.eqb sched (v0, map start progs) in
  finished st /\ (forall w, In w (snd st) -> missed w = 0) /\
  exists w p i, In w (snd st) /\ In (p, i) (numbers w) /\ forall j, ~ holds Nat.eqb (fst st) p j.
Proof. exact numbers_lost_proof. Qed.
Print Assumptions extra_points_kept_refuted.
