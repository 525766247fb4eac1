(** Theorems about the planes of a convex hull (C59). *)
From Coq Require Import NArith.
From Verif Require Import Base UtilSpec MatSpec HullModel HullSpec HullProofs.
Import List.ListNotations.

(** The planes found are bounding planes of the points, no two of them the same, and each
    bounding plane is the same as one of them. *)
Theorem hull_planes : forall fuel pts, 4 <= length pts -> (choose (length pts) 3 < 2 ^ 32)%N -> length pts < fuel ->
  exists planes, convex_hull_planes fuel pts = Ok planes /\
    (forall t, In t planes -> bounding pts t) /\
    (forall t, bounding pts t -> exists t', In t' planes /\ same_plane t t') /\
    ForallOrdPairs (fun t t' => ~ same_plane t t') planes.
Proof. exact hull_planes_proof. Qed.
Print Assumptions hull_planes.
Example hull_planes_example :
  let pts := [V3 0 0 0; V3 2 0 0; V3 0 2 0; V3 0 0 2; V3 2 2 0; V3 2 0 2; V3 0 2 2; V3 2 2 2; V3 1 1 1; V3 1 1 0]%Z in
  4 <= length pts /\ (choose (length pts) 3 < 2 ^ 32)%N /\
  exists planes, convex_hull_planes 11 pts = Ok planes /\ length planes = 6 /\
    In (V3 2 0 0, V3 0 0 0, V3 0 2 0)%Z planes.
Proof. split; [cbn; lia|]. split; [reflexivity|]. eexists. split; [vm_compute; reflexivity|]. split; [reflexivity|]. left. reflexivity. Qed.

(** Fewer than four points, or more choices of three points than 32 bits can count, are
    refused. *)
Theorem hull_throws : forall fuel pts, (length pts < 4 -> convex_hull_planes fuel pts = Throw) /\
  (4 <= length pts -> (2 ^ 32 <= choose (length pts) 3)%N -> (N.of_nat (length pts) <= 2 ^ 21)%N -> length pts < fuel ->
   convex_hull_planes fuel pts = Throw).
Proof. exact hull_throws_proof. Qed.
Print Assumptions hull_throws.
Example hull_throws_example : convex_hull_planes 9 [V3 0 0 0; V3 1 0 0; V3 0 1 0]%Z = Throw.
Proof. reflexivity. Qed.

(** Points in one plane have no bounding planes. *)
Theorem hull_flat : forall fuel pts, 4 <= length pts -> (choose (length pts) 3 < 2 ^ 32)%N -> length pts < fuel ->
  coplanar pts -> convex_hull_planes fuel pts = Ok [].
Proof. exact hull_flat_proof. Qed.
Print Assumptions hull_flat.
Example hull_flat_example : coplanar [V3 0 0 1; V3 1 0 1; V3 0 1 1; V3 1 1 1]%Z /\
  convex_hull_planes 5 [V3 0 0 1; V3 1 0 1; V3 0 1 1; V3 1 1 1]%Z = Ok [].
Proof.
  split; [|reflexivity]. exists (V3 0 0 1)%Z, 1%Z. split; [discriminate|].
  intros p [<-|[<-|[<-|[<-|[]]]]]; reflexivity.
Qed.
