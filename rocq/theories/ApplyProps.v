(** Property theorems: symmetry operations on polyhedra and the irreducible Brillouin zone. *)
From Coq Require Import QArith Qabs Lqa Permutation.
From Verif Require Import Base MatSpec IsometrySpec QPoint CutModel CutSpec CutCheckProofs VolumeModel VolumeSpec ZoneModel ZoneSpec ApplyModel ApplySpec CheckIrProofs CheckIrWitnessProofs TriclinicModel TriclinicProofs.
Local Open Scope nat_scope.

(** An operation takes a convex polyhedron to the polyhedron of the images of its points. *)
Theorem apply_exact : forall b m pts faces, independent b -> det3 m <> 0%Z -> convex pts faces -> faces <> [] ->
  exists p2 f2 U V, apply b m pts faces = Ok (p2, f2) /\ convex p2 f2 /\ length f2 = length faces /\
    (forall x y, carries b m x y -> inside p2 f2 y <-> inside pts faces x) /\ (forall x y, carries b m x y -> strictly_inside p2 f2 y <-> strictly_inside pts faces x) /\
    volume pts faces = Ok U /\ volume p2 f2 = Ok V /\ (V == Qabs (inject_Z (det3 m)) * U)%Q.
Proof. exact apply_carries_proof. Qed.
Print Assumptions apply_exact.
(** A threefold rotoinversion of a hexagonal lattice and a slab of it. *)
Definition hexagonal : q3 * q3 * q3 := (Q3 2 0 0, Q3 (-1) 2 0, Q3 0 0 3)%Q.
Definition threefold : m3 := M3 0 1 0 (-1) 1 0 0 0 (-1).
Example apply_exact_example : independent hexagonal /\ det3 threefold = (-1)%Z /\ convex (cuboid (1#2)) cuboid_faces /\
  carries hexagonal threefold (Q3 1 0 (1#2))%Q (Q3 (-1#2) 1 (-1#2))%Q /\
  exists p2 f2, apply hexagonal threefold (cuboid (1#2)) cuboid_faces = Ok (p2, f2) /\ length f2 = 6.
Proof.
  assert (I : independent hexagonal) by (vm_compute; discriminate). assert (K : convex (cuboid (1#2)) cuboid_faces) by (apply convexb_ok; vm_compute; reflexivity).
  split; [exact I|]. split; [reflexivity|]. split; [exact K|]. split; [exists (1#2)%Q, 0%Q, (1#6)%Q; split; vm_compute; repeat split|].
  destruct (apply_exact hexagonal threefold (cuboid (1#2)) cuboid_faces I) as (p2 & f2 & U & V & E & _ & L & _); [discriminate|exact K|discriminate|]. exists p2, f2. split; [exact E|exact L].
Qed.

(** Full statement: for every convex part of a zone that the point group keeps, the check holds
    if and only if the images of the part cover the zone and those under different operations do
    not overlap.  It does if the part was cut from the zone by planes through the origin. *)
Theorem check_ir_partial : forall fuel b sort ps fv ff (ts : list cutter) v part, 2 <= fuel -> independent b -> (forall l, Permutation l (sort l)) ->
  point_group ps -> convex fv ff -> ff <> [] -> kept b ps fv ff ->
  ts <> [] -> (forall t, In t ts -> proper t /\ (ahead t origin == 0)%Q) -> cut fuel fv ff ts = Ok (v, part) -> part <> [] ->
  exists a, check_ir fuel b sort ps fv ff v part = Ok a /\ (a = true <-> covered b ps fv ff v part /\ disjoint b ps v part).
Proof. exact wedge_proof. Qed.
Print Assumptions check_ir_partial.
(** Or if the point group has no inversion, or an inversion that takes no inner point of the part
    to another. *)
Theorem check_ir_inversion_partial : forall b ps fv ff v part, independent b -> point_group ps -> convex fv ff -> ff <> [] -> convex v part -> part <> [] ->
  (forall x, inside v part x -> inside fv ff x) -> kept b ps fv ff ->
  forall fuel sort, 2 <= fuel -> (forall l, Permutation l (sort l)) -> (In inversion ps -> forall x, strictly_inside v part x -> ~ strictly_inside v part (opposite x)) ->
  exists a, check_ir fuel b sort ps fv ff v part = Ok a /\ (a = true <-> covered b ps fv ff v part /\ disjoint b ps v part).
Proof. exact check_proof. Qed.
Print Assumptions check_ir_inversion_partial.
(** A monoclinic group, a box and a quarter of it, which passes, and another quarter, which does not. *)
Definition monoclinic : list m3 := [I3; M3 (-1) 0 0 0 (-1) 0 0 0 1; inversion; M3 1 0 0 0 1 0 0 0 (-1)].
Definition below_z : cutter := (Q3 0 0 0, Q3 1 0 0, Q3 0 1 0)%Q.
Definition below_x : cutter := (Q3 0 0 0, Q3 0 1 0, Q3 0 0 1)%Q.
Definition below_y : cutter := (Q3 0 0 0, Q3 0 0 1, Q3 1 0 0)%Q.
Example check_ir_partial_example : independent unit_basis /\ point_group monoclinic /\ convex (cuboid 1) cuboid_faces /\ kept unit_basis monoclinic (cuboid 1) cuboid_faces /\
  (forall t, In t [below_x; below_y; below_z] -> proper t /\ (ahead t origin == 0)%Q) /\
  (exists v part, cut 2 (cuboid 1) cuboid_faces [below_z; below_x] = Ok (v, part) /\ part <> [] /\ check_ir 2 unit_basis (fun l => l) monoclinic (cuboid 1) cuboid_faces v part = Ok true) /\
  (exists v part, cut 2 (cuboid 1) cuboid_faces [below_y; below_x] = Ok (v, part) /\ part <> [] /\ check_ir 2 unit_basis (fun l => l) monoclinic (cuboid 1) cuboid_faces v part = Ok false).
Proof.
  split; [apply unit_independent|]. split; [|split; [apply convexb_ok; vm_compute; reflexivity|split; [|split; [|split]]]].
  - split; [repeat constructor; cbn; intuition discriminate|]. split; [now left|]. split.
    + intros m n [<-|[<-|[<-|[<-|[]]]]] [<-|[<-|[<-|[<-|[]]]]]; vm_compute; auto.
    + intros m Hm. exists 2. split; [lia|]. destruct Hm as [<-|[<-|[<-|[<-|[]]]]]; reflexivity.
  - intros m x y Hm (h & k & l & (X1 & X2 & X3) & (Y1 & Y2 & Y3)) Hx. apply cuboid_inside in Hx; [|reflexivity]. apply cuboid_inside; [reflexivity|]. unfold combination, unit_basis in *. cbn [qx qy qz] in *.
    destruct Hm as [<-|[<-|[<-|[<-|[]]]]]; cbn [I3 inversion m00 m01 m02 m10 m11 m12 m20 m21 m22] in *; change (inject_Z 1) with 1%Q in *; change (inject_Z 0) with 0%Q in *; change (inject_Z (-1)) with (-1)%Q in *; lra.
  - intros t Ht. split; [exists (Q3 1 1 1)%Q|]; destruct Ht as [<-|[<-|[<-|[]]]]; vm_compute; try discriminate; reflexivity.
  - do 2 eexists. split; [vm_compute; reflexivity|]. split; [discriminate|]. vm_compute. reflexivity.
  - do 2 eexists. split; [vm_compute; reflexivity|]. split; [discriminate|]. vm_compute. reflexivity.
Qed.
(** The inversion is left out of the test for overlaps: a part that is its own inverse passes. *)
Theorem check_ir_refuted : exists b ps fv ff v part, independent b /\ point_group ps /\ convex fv ff /\ ff <> [] /\ convex v part /\ part <> [] /\ (forall x, inside v part x -> inside fv ff x) /\ kept b ps fv ff /\
  (forall fuel sort, 2 <= fuel -> (forall l, Permutation l (sort l)) -> check_ir fuel b sort ps fv ff v part = Ok true) /\ ~ covered b ps fv ff v part.
Proof. exact slab_proof. Qed.
Print Assumptions check_ir_refuted.

(** For a triclinic lattice the construction finds an irreducible part of the first zone. *)
Theorem triclinic_zone : forall b ps time_reversal de, independent b -> point_group ps -> (forall m, In m ps -> m = I3 \/ m = inversion) -> (1 <= de)%Z ->
  exists n, forall brute loops fuel sort_points sort gs, n <= loops -> 2 <= fuel -> (forall l, Permutation l (sort_points l)) -> (forall l, Permutation l (sort l)) ->
    (forall m, In m gs <-> m = I3 \/ (m = inversion /\ (time_reversal = true \/ In inversion ps))) ->
  exists fv ff v part, construct_first loops fuel b sort_points de = Ok (fv, ff) /\ construct_ir brute loops fuel b sort_points sort ps time_reversal de = Ok ((fv, ff), (v, part)) /\
    convex fv ff /\ convex v part /\ part <> [] /\ kept b gs fv ff /\ (forall x, inside v part x -> inside fv ff x) /\ covered b gs fv ff v part /\ disjoint b gs v part.
Proof. exact triclinic_proof. Qed.
Print Assumptions triclinic_zone.
Example triclinic_zone_example : let b := (Q3 1 0 0, Q3 0 2 0, Q3 (-1#2) (-1) 3)%Q in independent b /\ point_group pair_group /\ point_group [I3] /\
  exists v part, wedge_triclinic 2 unit_basis (fun l => l) pair_group (cuboid 1) cuboid_faces = Ok (true, (v, part)) /\ length part = 6 /\ length v = 8.
Proof.
  cbv zeta. split; [vm_compute; discriminate|]. split; [apply pair_group_ok|]. split.
  - split; [repeat constructor; intros []|]. split; [now left|]. split; [intros m n [<-|[]] [<-|[]]; now left|]. intros m [<-|[]]. exists 1. split; [lia|reflexivity].
  - do 2 eexists. split; [vm_compute; reflexivity|]. split; reflexivity.
Qed.
