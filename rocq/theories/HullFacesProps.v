(** Theorems about the faces of a convex hull (C89-C91). *)
From Coq Require Import NArith.
From Verif Require Import Base UtilSpec MatSpec HullFacesModel HullSpec HullFacesSpec HullFacesProofs.
Import List.ListNotations.

(** Points in convex position are all kept; there is one face for each bounding plane, its
    corners are the points in this plane, and they run anticlockwise seen from outside. *)
Theorem hull_polygons : forall unit fuel pts, (0 < unit)%Z -> 4 <= length pts -> (choose (length pts) 3 < 2 ^ 32)%N -> length pts < fuel ->
  convex_position pts -> ~ coplanar pts ->
  exists planes faces, convex_hull unit fuel pts = Ok (pts, faces) /\ Forall2 (facet pts) planes faces /\
    (forall t, In t planes -> bounding pts t) /\
    (forall t, bounding pts t -> exists t', In t' planes /\ same_plane t t') /\
    ForallOrdPairs (fun t t' => ~ same_plane t t') planes.
Proof. exact convex_hull_proof. Qed.
Print Assumptions hull_polygons.
Example hull_polygons_example :
  let pts := [V3 0 0 0; V3 4 0 0; V3 0 4 0; V3 4 4 0; V3 2 2 3]%Z in
  4 <= length pts /\ (choose (length pts) 3 < 2 ^ 32)%N /\ convex_position pts /\ ~ coplanar pts /\
  convex_hull 1 6 pts = Ok (pts, [[0; 2; 3; 1]; [0; 1; 4]; [0; 4; 2]; [1; 3; 4]; [2; 4; 3]]).
Proof.
  split; [cbn; lia|]. split; [reflexivity|]. split; [|split; [|vm_compute; reflexivity]].
  - split; [repeat constructor; cbn; intuition discriminate|].
    intros p [<-|[<-|[<-|[<-|[<-|[]]]]]]; [exists (V3 (-1) (-1) (-1))%Z|exists (V3 1 (-1) (-1))%Z|exists (V3 (-1) 1 (-1))%Z|exists (V3 1 1 (-1))%Z|exists (V3 0 0 1)%Z];
      intros q Hq Nq; destruct Hq as [<-|[<-|[<-|[<-|[<-|[]]]]]]; try (now destruct Nq); vm_compute; reflexivity.
  - intros ([n0 n1 n2] & d & N & H). apply N.
    pose proof (H (V3 0 0 0)%Z ltac:(cbn; tauto)). pose proof (H (V3 4 0 0)%Z ltac:(cbn; tauto)). pose proof (H (V3 0 4 0)%Z ltac:(cbn; tauto)). pose proof (H (V3 2 2 3)%Z ltac:(cbn; tauto)).
    unfold dot3 in *; cbn [v0 v1 v2] in *; f_equal; lia.
Qed.

(** A point given twice: another corner of the hull is lost. *)
Theorem hull_duplicate_refuted : exists pts vertices faces p, 4 <= length pts /\ ~ coplanar pts /\ (forall p, In p pts -> extreme pts p) /\
  convex_hull 1 20 pts = Ok (vertices, faces) /\ In p pts /\ ~ In p vertices.
Proof. exact duplicate_proof. Qed.
Print Assumptions hull_duplicate_refuted.
(** A point on an edge of the hull: a bounding plane has no face. *)
Theorem hull_colinear_refuted : exists pts vertices faces t, NoDup pts /\ 4 <= length pts /\ convex_hull 1 20 pts = Ok (vertices, faces) /\
  bounding pts t /\ ~ covers vertices faces t.
Proof. exact colinear_proof. Qed.
Print Assumptions hull_colinear_refuted.
(** The same without three points on a line. *)
Theorem hull_interior_refuted : exists pts vertices faces t, NoDup pts /\ no_three_on_a_line pts /\ 4 <= length pts /\ convex_hull 1 20 pts = Ok (vertices, faces) /\
  bounding pts t /\ ~ covers vertices faces t.
Proof. exact interior_proof. Qed.
Print Assumptions hull_interior_refuted.
(** A face that is not convex. *)
Theorem hull_reflex_refuted : exists pts vertices faces f, NoDup pts /\ 4 <= length pts /\ convex_hull 1 20 pts = Ok (vertices, faces) /\
  In f faces /\ forall n, ~ anticlockwise vertices n f.
Proof. exact reflex_proof. Qed.
Print Assumptions hull_reflex_refuted.

(** For points in one plane no plane is found, and planes that are not there are read. *)
Theorem hull_flat_unchecked : forall unit fuel pts, NoDup pts -> 4 <= length pts -> (choose (length pts) 3 < 2 ^ 32)%N -> length pts < fuel ->
  coplanar pts -> convex_hull unit fuel pts = UB.
Proof. exact flat_proof. Qed.
Print Assumptions hull_flat_unchecked.
Example hull_flat_unchecked_example : let pts := [V3 0 0 1; V3 1 0 1; V3 0 1 1; V3 1 1 1]%Z in
  NoDup pts /\ coplanar pts /\ convex_hull 1 5 pts = UB.
Proof.
  split; [repeat constructor; cbn; intuition discriminate|]. split; [|reflexivity]. exists (V3 0 0 1)%Z, 1%Z. split; [discriminate|].
  intros p [<-|[<-|[<-|[<-|[]]]]]; reflexivity.
Qed.

(** Points in one plane are not refused. *)
Theorem hull_flat_refuted : exists unit fuel pts, NoDup pts /\ 4 <= length pts /\ length pts < fuel /\ convex_hull unit fuel pts = UB.
Proof. exact flat_refuted_proof. Qed.
Print Assumptions hull_flat_refuted.
