(** Property theorems: the search for the irreducible wedge, with hulls of a part and its mirror image. *)
From Coq Require Import QArith Lqa Permutation.
From Verif Require Import Base MatSpec IsometrySpec QPoint CutModel CutSpec VolumeSpec ZoneModel ZoneSpec ApplySpec CheckIrProofs CheckIrWitnessProofs WedgeModel WedgeSpec WedgeWitnessProofs WedgeFullModel WedgeHullSpec WedgeHullProofs WedgeHullWitnessProofs MoveEndProofs.
Local Open Scope nat_scope.

(** ** C114: whatever normals are found, the polyhedron of a search that succeeds is irreducible
    and the stored normals delimit it, also if it is the hull of a part and the image of its
    mirror image.  The zone is symmetric about the origin, as a first Brillouin zone is. *)
Theorem search_irreducible : forall hull fuel b sort ps has_inversion fv ff, 2 <= fuel -> independent b -> (forall l, Permutation l (sort l)) -> point_group ps -> convex fv ff -> ff <> [] -> kept b ps fv ff -> (has_inversion = true <-> In inversion ps) ->
  (forall x, inside fv ff x -> inside fv ff (opposite x)) -> (forall p q c, hull p q = Ok c -> within_hull p q c) ->
  forall founds st, search hull fuel b sort ps has_inversion (fv, ff) founds = Ok st -> s_no_mirroring st = true /\
  irreducible b ps fv ff (fst (s_ir st)) (snd (s_ir st)) /\ exists ns, s_wedge st = Some ns /\ delimits ns fv ff (fst (s_ir st)) (snd (s_ir st)).
Proof. exact search_all_proof. Qed.
Print Assumptions search_irreducible.
(** A cube with one mirror plane: a quarter is found and the hull, which is the half, is taken. *)
Example search_irreducible_case : independent unit_basis /\ point_group one_mirror /\ convex (cuboid 1) cuboid_faces /\ kept unit_basis one_mirror (cuboid 1) cuboid_faces /\ ~ In inversion one_mirror /\
  (forall x, inside (cuboid 1) cuboid_faces x -> inside (cuboid 1) cuboid_faces (opposite x)) /\ (forall p q c, some_hull p q = Ok c -> within_hull p q c) /\
  exists st, search some_hull 2 unit_basis (fun l => l) one_mirror false (cuboid 1, cuboid_faces) [([Q3 0 1 0; Q3 1 0 0]%Q, false)] = Ok st /\ s_hull st = true /\ s_ir st = half_p /\ s_wedge st = Some [Q3 4 0 0]%Q.
Proof.
  split; [apply unit_independent|]. split; [apply one_mirror_group|]. split; [apply cuboid_convex|]. split; [apply one_mirror_kept|]. split; [intros [H|[H|[]]]; discriminate|]. split; [apply cube_opposite|]. split; [apply some_hull_ok|apply half_found].
Qed.

(** Each irreducible part of a zone around the origin is cut from it by planes through the
    origin. *)
Theorem irreducible_is_wedge : forall b ps fv ff v part, independent b -> point_group ps -> inside fv ff origin -> irreducible b ps fv ff v part -> wedge_of fv ff v part.
Proof. exact cone_all_proof. Qed.
Print Assumptions irreducible_is_wedge.
Example irreducible_is_wedge_case : independent unit_basis /\ point_group about_x /\ inside (cuboid 1) cuboid_faces origin /\ exists v part, irreducible unit_basis about_x (cuboid 1) cuboid_faces v part.
Proof.
  split; [apply unit_independent|]. split; [apply about_x_group|]. split; [apply cuboid_inside; [reflexivity|vm_compute; repeat split; discriminate]|]. destruct quarter_proof as (v & part & A & _). eauto.
Qed.

(** ** C141: the same for the search from the zone and its operations *)
Theorem wedge_search_irreducible : forall hull fuel sort by_length by_isometry by_number b ps has_inversion fv ff, 2 <= fuel -> independent b ->
  (forall l, Permutation l (sort l)) ->
  point_group ps -> convex fv ff -> ff <> [] -> kept b ps fv ff -> (has_inversion = true <-> In inversion ps) ->
  (forall x, inside fv ff x -> inside fv ff (opposite x)) -> (forall p q c, hull p q = Ok c -> within_hull p q c) ->
  forall st, wedge_search sort by_length by_isometry by_number b ps (fv, ff) hull fuel has_inversion = Ok st -> s_no_mirroring st = true /\
  irreducible b ps fv ff (fst (s_ir st)) (snd (s_ir st)) /\ exists ns, s_wedge st = Some ns /\ delimits ns fv ff (fst (s_ir st)) (snd (s_ir st)).
Proof. exact wedge_search_all_proof. Qed.
Print Assumptions wedge_search_irreducible.
(** With one mirror plane and no inversion the mirror plane is found. *)
Example wedge_search_irreducible_case : exists st, wedge_search (fun l => l) (fun l => l) (fun l => l) (fun l => l) unit_basis one_mirror (cuboid 1, cuboid_faces) some_hull 2 false = Ok st /\ s_hull st = false /\
  match s_wedge st with Some l => map (fun n => (Qred (qx n), Qred (qy n), Qred (qz n))) l = [(4, 0, 0)]%Q | None => False end.
Proof. eexists. split; [vm_compute; reflexivity|]. split; vm_compute; reflexivity. Qed.

(** For the first Brillouin zone itself and operations that keep all lengths, each point of the
    zone is the image of one in the part found. *)
Theorem first_zone_wedge : forall hull fuel sort by_length by_isometry by_number b ps has_inversion fv ff, 2 <= fuel -> independent b -> (forall l, Permutation l (sort l)) ->
  point_group ps -> (forall m x y, In m ps -> carries b m x y -> (dot y y == dot x x)%Q) -> (has_inversion = true <-> In inversion ps) ->
  convex fv ff -> ff <> [] -> (forall x, inside fv ff x <-> first_zone b x) -> (forall p q c, hull p q = Ok c -> within_hull p q c) ->
  forall st, wedge_search sort by_length by_isometry by_number b ps (fv, ff) hull fuel has_inversion = Ok st ->
  (forall y, first_zone b y -> exists m x, In m ps /\ inside (fst (s_ir st)) (snd (s_ir st)) x /\ carries b m x y) /\
  irreducible b ps fv ff (fst (s_ir st)) (snd (s_ir st)) /\ exists ns, s_wedge st = Some ns /\ forall x, first_zone b x -> inside (fst (s_ir st)) (snd (s_ir st)) x <-> forall n, In n ns -> (0 <= dot n x)%Q.
Proof. exact first_zone_proof. Qed.
Print Assumptions first_zone_wedge.
Example first_zone_wedge_case : independent twice /\ convex (cuboid 1) cuboid_faces /\ (forall x, inside (cuboid 1) cuboid_faces x <-> first_zone twice x) /\ (forall m x y, In m one_mirror -> carries twice m x y -> (dot y y == dot x x)%Q) /\
  exists st, wedge_search (fun l => l) (fun l => l) (fun l => l) (fun l => l) twice one_mirror (cuboid 1, cuboid_faces) some_hull 2 false = Ok st /\ s_wedge st <> None.
Proof.
  split; [vm_compute; discriminate|]. split; [exact twice_convex|]. split; [exact twice_zone|]. split.
  - intros m x y Hm (h & k & l & (X1 & X2 & X3) & (Y1 & Y2 & Y3)). unfold dot. rewrite X1, X2, X3, Y1, Y2, Y3. unfold combination, twice. cbn [qx qy qz].
    destruct Hm as [<-|[<-|[]]]; cbn [I3 m00 m01 m02 m10 m11 m12 m20 m21 m22]; change (inject_Z 1) with 1%Q; change (inject_Z 0) with 0%Q; change (inject_Z (-1)) with (-1)%Q; ring.
  - eexists. split; [vm_compute; reflexivity|]. discriminate.
Qed.
