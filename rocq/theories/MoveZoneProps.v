(** Moving points into the first Brillouin zone of a lattice (C111-C113). *)
From Coq Require Import QArith Permutation.
From Verif Require Import Base Array2Model MatSpec PrimitiveModel QPoint CutModel CutSpec VolumeSpec ZoneModel ZoneSpec ApplySpec CheckIrWitnessProofs FacePointModel MoveZoneModel MoveZoneSpec MoveEndProofs MoveStuckProofs.
From Verif Require BzMoveModel.
Local Open Scope outcome_scope.
Local Open Scope nat_scope.

(** The point of every face is half a lattice vector, and the face is on the plane midway to it. *)
Theorem face_points_exact : forall b p f, independent b -> convex p f -> (forall x, inside p f x <-> first_zone b x) ->
  exists pts, face_points p f = Ok pts /\
  Forall2 (fun g pt => exists i j k, (0 < dot (lattice_point b i j k) (lattice_point b i j k))%Q /\ same_place (qscale 2 pt) (lattice_point b i j k) /\
    forall x, (ahead (face_plane p g) x <= 0)%Q <-> (distance2 x origin <= distance2 x (lattice_point b i j k))%Q) f pts.
Proof. exact points_end. Qed.
Print Assumptions face_points_exact.
Example face_points_example : independent twice /\ convex (cuboid 1) cuboid_faces /\ (forall x, inside (cuboid 1) cuboid_faces x <-> first_zone twice x) /\
  exists pts, face_points (cuboid 1) cuboid_faces = Ok pts /\ Forall2 same_place pts [Q3 0 0 (-1); Q3 0 0 1; Q3 0 (-1) 0; Q3 1 0 0; Q3 0 1 0; Q3 (-1) 0 0]%Q.
Proof. split; [vm_compute; discriminate|]. split; [exact twice_convex|]. split; [exact twice_zone|]. eexists. split; [vm_compute; reflexivity|]. repeat constructor. Qed.

(** What moveinto returns is in the first zone and equivalent to the point; there is no other
    outcome than such a result and an exception. *)
Theorem moveinto_first_zone : forall b p f ops wedge mir, right_handed b -> convex p f -> (forall x, inside p f x <-> first_zone b x) ->
  exists z, zone_of b p f ops wedge mir = Ok z /\ forall Qs,
    (exists res, BzMoveModel.moveinto z std_round BzMoveModel.Conventional Qs = Ok res /\
      Forall2 (fun x o => apart b (located b x) (located b (fst o)) (snd o) /\ first_zone b (located b (fst o))) Qs res) \/
    BzMoveModel.moveinto z std_round BzMoveModel.Conventional Qs = Throw.
Proof. exact into_end. Qed.
Print Assumptions moveinto_first_zone.
Example moveinto_first_zone_example : right_handed twice /\ convex (cuboid 1) cuboid_faces /\ (forall x, inside (cuboid 1) cuboid_faces x <-> first_zone twice x) /\
  exists z res, zone_of twice (cuboid 1) cuboid_faces [] [] false = Ok z /\ BzMoveModel.moveinto z std_round BzMoveModel.Conventional [(7 # 4, -(13 # 4), 1 # 4)%Q] = Ok res.
Proof. split; [exact twice_right|]. split; [exact twice_convex|]. split; [exact twice_zone|]. apply twice_moved. Qed.

(** The full statement would be that moveinto succeeds for every list of points.  Here: for
    points that no lattice vector brings to the plane of a face the loop ends in the zone, when
    it may take enough steps.  Missing: that the number of faces is enough. *)
Theorem moveinto_ends_partial : forall b p f ops wedge mir z x, right_handed b -> convex p f -> (forall y, inside p f y <-> first_zone b y) ->
  zone_of b p f ops wedge mir = Ok z -> off_faces b p f (located b x) ->
  exists K, forall count tau last, K <= count ->
    exists q t, BzMoveModel.move_loop z true (BzMoveModel.planes z) count x tau last = Ok (q, t) /\ first_zone b (located b q).
Proof. exact loop_end. Qed.
Print Assumptions moveinto_ends_partial.
Example moveinto_ends_example : (exists z, zone_of twice (cuboid 1) cuboid_faces [] [] false = Ok z) /\ off_faces twice (cuboid 1) cuboid_faces (located twice (1#3, 4#3, -5#6)%Q).
Proof. split; [exact twice_made|exact twice_off]. Qed.
(** For lattices with right angles the full statement holds. *)
Theorem moveinto_orthogonal_partial : forall b p f ops wedge mir z Qs, right_handed b -> convex p f -> (forall y, inside p f y <-> first_zone b y) ->
  zone_of b p f ops wedge mir = Ok z -> right_angles b ->
  exists res, BzMoveModel.moveinto z std_round BzMoveModel.Conventional Qs = Ok res.
Proof. exact square_end. Qed.
Print Assumptions moveinto_orthogonal_partial.
Example moveinto_orthogonal_example : right_angles twice /\ exists z, zone_of twice (cuboid 1) cuboid_faces [] [] false = Ok z.
Proof. split; [exact twice_angles|exact twice_made]. Qed.
(** It does not hold for all lattices, not even for points that are in the first zone. *)
Theorem moveinto_stuck_refuted : exists b x, right_handed b /\ obtuse b /\ first_zone b (located b x) /\
  forall de loops fuel sort ops wedge mir, (1 <= de)%Z -> 3 <= loops -> 2 <= fuel -> (forall l, Permutation l (sort l)) ->
  exists p f z, construct_first loops fuel b sort de = Ok (p, f) /\ convex p f /\ (forall y, inside p f y <-> first_zone b y) /\
    zone_of b p f ops wedge mir = Ok z /\ BzMoveModel.moveinto z std_round BzMoveModel.Conventional [x] = Throw.
Proof. exact stuck_proof. Qed.
Print Assumptions moveinto_stuck_refuted.
