(** Property theorems: volume, centroid and copies of convex polyhedra. *)
From Coq Require Import QArith.
From Verif Require Import Base QPoint CutModel CutSpec VolumeModel VolumeSpec CutCheckProofs VolumeProofs CentroidProofs MoveProofs CutWitnessProofs.
Local Open Scope nat_scope.

(** A pyramid with a square base, away from the origin. *)
Definition pyramid : list q3 := [Q3 1 1 1; Q3 3 1 1; Q3 3 3 1; Q3 1 3 1; Q3 2 2 4]%Q.
Definition pyramid_faces : list (list nat) := [[0;3;2;1];[0;1;4];[1;2;4];[2;3;4];[3;0;4]].

(** The volume is that of the tetrahedra from any point of the polyhedron to its faces. *)
Theorem volume_of_convex : forall pts faces, convex pts faces -> faces <> [] ->
  exists V, volume pts faces = Ok V /\ (0 < V)%Q /\ forall o, inside pts faces o -> (V == total (tetrahedron_volume o) pts faces)%Q.
Proof. exact volume_proof. Qed.
Print Assumptions volume_of_convex.
Example volume_of_convex_example : convex pyramid pyramid_faces /\ inside pyramid pyramid_faces (Q3 2 2 1) /\ exists V, volume pyramid pyramid_faces = Ok V /\ (V == 4)%Q.
Proof.
  split; [apply convexb_ok; vm_compute; reflexivity|]. split; [intros f Hf; cbn in Hf; repeat destruct Hf as [<-|Hf]; vm_compute; try discriminate; contradiction|].
  eexists. split; [vm_compute; reflexivity|]. vm_compute. reflexivity.
Qed.

(** The centroid is inside, and the mean of the centres of these tetrahedra. *)
Theorem centroid_of_convex : forall pts faces, convex pts faces -> faces <> [] ->
  exists V c, volume pts faces = Ok V /\ centroid pts faces = Ok [Some c] /\ strictly_inside pts faces c /\
  forall o d, inside pts faces o -> (V * dot d c == total (fun t => tetrahedron_volume o t * tetrahedron_centre d o t) pts faces)%Q.
Proof. exact centroid_proof. Qed.
Print Assumptions centroid_of_convex.
Example centroid_of_convex_example : convex pyramid pyramid_faces /\ exists c, centroid pyramid pyramid_faces = Ok [Some c] /\ same_place c (Q3 2 2 (7#4)).
Proof. split; [apply convexb_ok; vm_compute; reflexivity|]. eexists. split; [vm_compute; reflexivity|]. repeat split; vm_compute; reflexivity. Qed.

(** The sphere around the centroid holds the polyhedron and goes through a corner. *)
Theorem circumsphere_of_convex : forall pts faces, convex pts faces -> faces <> [] ->
  exists c r, centroid pts faces = Ok [Some c] /\ circumsphere_radius2 pts faces = Ok (Some r) /\
  (forall x, inside pts faces x -> (distance2 x c <= r)%Q) /\ exists i, i < length pts /\ (distance2 (place pts i) c == r)%Q.
Proof. exact radius_proof. Qed.
Print Assumptions circumsphere_of_convex.
Example circumsphere_of_convex_example : convex pyramid pyramid_faces /\ exists r, circumsphere_radius2 pyramid pyramid_faces = Ok (Some r) /\ (r == 81 # 16)%Q.
Proof. split; [apply convexb_ok; vm_compute; reflexivity|]. eexists. split; [vm_compute; reflexivity|]. vm_compute. reflexivity. Qed.

Theorem mirror_of_convex : forall pts faces, convex pts faces ->
  let '(p2, f2) := mirror pts faces in convex p2 f2 /\ forall x, inside p2 f2 (opposite x) <-> inside pts faces x.
Proof. exact mirror_proof. Qed.
Print Assumptions mirror_of_convex.
Example mirror_of_convex_example : convex pyramid pyramid_faces /\ snd (mirror pyramid pyramid_faces) = [[1;2;3;0];[4;1;0];[4;2;1];[4;3;2];[4;0;3]].
Proof. split; [apply convexb_ok; vm_compute; reflexivity|reflexivity]. Qed.
Theorem translate_convex : forall d pts faces, convex pts faces ->
  let '(p2, f2) := translate d pts faces in convex p2 f2 /\ forall x, inside p2 f2 (moved d x) <-> inside pts faces x.
Proof. exact translate_proof. Qed.
Print Assumptions translate_convex.
Theorem translate_volume : forall d pts faces, convex pts faces -> faces <> [] -> let '(p2, f2) := translate d pts faces in exists V c V2 c2,
  volume pts faces = Ok V /\ centroid pts faces = Ok [Some c] /\ volume p2 f2 = Ok V2 /\ centroid p2 f2 = Ok [Some c2] /\ (V2 == V)%Q /\ same_place c2 (moved d c).
Proof. exact moved_proof. Qed.
Print Assumptions translate_volume.
Theorem centre_at_origin : forall pts faces, convex pts faces -> faces <> [] ->
  exists p2 f2 z, centre pts faces = Ok (Some (p2, f2)) /\ convex p2 f2 /\ centroid p2 f2 = Ok [Some z] /\ same_place z (Q3 0 0 0) /\
  exists d, forall x, inside p2 f2 (moved d x) <-> inside pts faces x.
Proof. exact centre_proof. Qed.
Print Assumptions centre_at_origin.
Example translate_convex_example : convex pyramid pyramid_faces /\ exists c, centroid (fst (translate (Q3 1 2 3) pyramid pyramid_faces)) pyramid_faces = Ok [Some c] /\ same_place c (Q3 3 4 (19#4)).
Proof. split; [apply convexb_ok; vm_compute; reflexivity|]. eexists. split; [vm_compute; reflexivity|]. repeat split; vm_compute; reflexivity. Qed.

(** Full statement: what is left is the part of the polyhedron behind the plane,
    [inside p2 f2 x <-> inside pts faces x /\ ahead t x <= 0].  It is the part behind the
    plane moved by the centroid. *)
Theorem divide_partial : forall fuel pts faces t, 2 <= fuel -> convex pts faces -> faces <> [] -> proper t ->
  exists z p2 f2, centroid pts faces = Ok [Some z] /\ divide fuel pts faces t = Ok (Some (p2, f2)) /\
  ((exists x, strictly_inside pts faces x /\ (ahead t (minus x z) < 0)%Q) ->
     convex p2 f2 /\ forall x, inside p2 f2 x <-> inside pts faces x /\ (ahead t (minus x z) <= 0)%Q) /\
  (~ (exists x, strictly_inside pts faces x /\ (ahead t (minus x z) < 0)%Q) -> f2 = []).
Proof. exact divide_proof. Qed.
Print Assumptions divide_partial.
Example divide_partial_example : convex pyramid pyramid_faces /\ proper (Q3 0 0 0, Q3 0 1 0, Q3 0 0 1)%Q /\
  exists p2 f2, divide 2 pyramid pyramid_faces (Q3 0 0 0, Q3 0 1 0, Q3 0 0 1)%Q = Ok (Some (p2, f2)) /\ length p2 = 5 /\ length f2 = 5.
Proof.
  split; [apply convexb_ok; vm_compute; reflexivity|]. split; [exists (Q3 1 0 0); vm_compute; discriminate|]. eexists. eexists. split; [vm_compute; reflexivity|]. split; reflexivity.
Qed.
Theorem divide_refuted : exists pts faces t p2 f2 x, convex pts faces /\ faces <> [] /\ proper t /\ divide 2 pts faces t = Ok (Some (p2, f2)) /\
  inside p2 f2 x /\ (0 < ahead t x)%Q.
Proof. exact apart_proof. Qed.
Print Assumptions divide_refuted.

Theorem intersects_convex : forall fuel pts faces w gaces, 2 <= fuel -> convex pts faces -> faces <> [] -> convex w gaces -> gaces <> [] ->
  exists b, intersects fuel pts faces w gaces = Ok (Some b) /\ (b = true <-> exists x, strictly_inside pts faces x /\ strictly_inside w gaces x).
Proof. exact intersects_proof. Qed.
Print Assumptions intersects_convex.
(** The pyramid meets a moved copy, but not its reflection below the base, which only touches it. *)
Example intersects_convex_example : convex pyramid pyramid_faces /\ convex (fst (translate (Q3 1 1 1) pyramid pyramid_faces)) pyramid_faces /\
  intersects 2 pyramid pyramid_faces (fst (translate (Q3 1 1 1) pyramid pyramid_faces)) pyramid_faces = Ok (Some true) /\
  intersects 2 pyramid pyramid_faces (map (fun x => Q3 (qx x) (qy x) (2 - qz x)) pyramid) (map (@rev nat) pyramid_faces) = Ok (Some false).
Proof. split; [apply convexb_ok; vm_compute; reflexivity|]. split; [apply convexb_ok; vm_compute; reflexivity|]. split; vm_compute; reflexivity. Qed.
