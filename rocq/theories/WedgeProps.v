(** Property theorems: the search for the irreducible wedge. *)
From Coq Require Import QArith Lqa Permutation.
From Verif Require Import Base MatSpec IsometrySpec QPoint CutModel CutSpec VolumeSpec ZoneModel ZoneSpec ApplyModel ApplySpec CheckIrProofs CheckIrWitnessProofs TriclinicModel WedgeModel WedgeSpec WedgeNormalProofs WedgeSearchProofs WedgeWitnessProofs.
Local Open Scope nat_scope.

(** The normals of the wedge: each of them is needed and together they delimit the part, which
    was cut from the zone by planes through the origin.  If nothing was cut off there is an
    exception. *)
Theorem wedge_normals_exact : forall fv ff v part, convex fv ff -> convex v part -> part <> [] -> wedge_of fv ff v part ->
  ((exists x, inside fv ff x /\ ~ inside v part x) -> exists ns, wedge_normals (fv, ff) (v, part) = Ok ns /\ ns <> [] /\ delimits ns fv ff v part /\
     forall n, In n ns -> exists x, inside fv ff x /\ (dot n x < 0)%Q /\ forall m, In m ns -> m <> n -> (0 <= dot m x)%Q) /\
  ((forall x, inside fv ff x -> inside v part x) -> wedge_normals (fv, ff) (v, part) = Throw).
Proof. exact wedge_normals_proof. Qed.
Print Assumptions wedge_normals_exact.
Example wedge_normals_example : exists q, quarter = Ok q /\ convex (fst q) (snd q) /\ wedge_of (cuboid 1) cuboid_faces (fst q) (snd q) /\
  wedge_normals (cuboid 1, cuboid_faces) q = Ok [Q3 0 2 0; Q3 2 0 0]%Q /\ wedge_normals (cuboid 1, cuboid_faces) (cuboid 1, cuboid_faces) = Throw.
Proof.
  assert (Wh : sane (cuboid 1) cuboid_faces (cuboid 1, cuboid_faces)). { split; [apply cuboid_convex|]. split; [discriminate|]. exists []. split; [intros t []|]. intros x. cbn [fst snd]. split; [intros H; split; [exact H|intros t []]|tauto]. }
  destruct (cut_fine 2 (cuboid 1) cuboid_faces (le_n 2) _ _ Wh (planes_through [Q3 0 1 0; Q3 1 0 0] eq_refl)) as (q & E & Fq & _). cbn [fst snd] in E. change (quarter = Ok q) in E. exists q. split; [exact E|].
  assert (Q : quarter = Ok q) by exact E. vm_compute in Q. injection Q as Q. destruct Fq as [X|(C & _ & W)]; [rewrite <- Q in X; discriminate|]. split; [exact C|]. split; [exact W|]. split; [rewrite <- Q; vm_compute; reflexivity|vm_compute; reflexivity].
Qed.

(** Whatever normals the eight attempts find: when the search succeeds, the polyhedron needs no
    mirroring, and, unless it is the hull of a polyhedron and its mirror image, it is irreducible
    and the normals that are stored delimit it.
    Full statement: the same for hulls, too.  The hull is a parameter, of which nothing is known. *)
Theorem search_irreducible_partial : forall hull fuel b sort ps has_inversion fv ff, 2 <= fuel -> independent b -> (forall l, Permutation l (sort l)) -> point_group ps ->
  convex fv ff -> ff <> [] -> kept b ps fv ff -> (has_inversion = true <-> In inversion ps) ->
  forall founds st, search hull fuel b sort ps has_inversion (fv, ff) founds = Ok st ->
  s_no_mirroring st = true /\
  (s_hull st = false -> irreducible b ps fv ff (fst (s_ir st)) (snd (s_ir st)) /\ exists ns, s_wedge st = Some ns /\ delimits ns fv ff (fst (s_ir st)) (snd (s_ir st))).
Proof. exact search_proof. Qed.
Print Assumptions search_irreducible_partial.
(** With an inversion there are no hulls and nothing is undefined. *)
Theorem search_defined : forall hull fuel b sort ps has_inversion fv ff, 2 <= fuel -> independent b -> (forall l, Permutation l (sort l)) -> point_group ps ->
  convex fv ff -> ff <> [] -> kept b ps fv ff -> (has_inversion = true <-> In inversion ps) -> forall founds, In inversion ps ->
  search hull fuel b sort ps has_inversion (fv, ff) founds = Throw \/ exists st, search hull fuel b sort ps has_inversion (fv, ff) founds = Ok st /\ s_hull st = false.
Proof. exact defined_proof. Qed.
Print Assumptions search_defined.
(** A first candidate that is irreducible, and one of twice the volume that is divided. *)
Definition about_z : list m3 := [I3; M3 (-1) 0 0 0 (-1) 0 0 0 1; inversion; M3 1 0 0 0 1 0 0 0 (-1)].
Example search_example : point_group about_x /\ kept unit_basis about_x (cuboid 1) cuboid_faces /\ In inversion about_x /\
  (exists st, search (fun _ _ => Throw) 2 unit_basis (fun l => l) about_x true (cuboid 1, cuboid_faces) [([Q3 0 1 0; Q3 1 0 0]%Q, true)] = Ok st /\ s_wedge st = Some [Q3 0 2 0; Q3 2 0 0]%Q) /\
  (exists st, search (fun _ _ => Throw) 2 unit_basis (fun l => l) about_z true (cuboid 1, cuboid_faces) [([Q3 0 0 0], false); ([Q3 1 0 0]%Q, true)] = Ok st /\ s_wedge st = Some [Q3 4 0 0; Q3 0 0 4]%Q).
Proof.
  split; [apply about_x_group|]. split; [apply about_x_kept|]. split; [cbn; tauto|]. split; (eexists; split; [vm_compute; reflexivity|reflexivity]).
Qed.

(** Normals that delimit an irreducible part are accepted in the first attempt that has them. *)
Theorem search_finds : forall hull fuel b sort ps has_inversion fv ff, 2 <= fuel -> independent b -> (forall l, Permutation l (sort l)) -> point_group ps ->
  convex fv ff -> ff <> [] -> kept b ps fv ff -> (has_inversion = true <-> In inversion ps) ->
  forall ns v part, (exists m, In m ps /\ m <> I3) -> (forall n, In n ns -> ~ same_place n origin) -> ns <> [] -> irreducible b ps fv ff v part -> delimits ns fv ff v part ->
  forall tried one_axis rest st0, attempts hull fuel b sort ps has_inversion (fv, ff) (State (fv, ff) None true false) tried = Ok (false, st0) ->
  exists st, search hull fuel b sort ps has_inversion (fv, ff) (tried ++ (ns, one_axis) :: rest) = Ok st /\ s_hull st = false /\
    forall x, inside (fst (s_ir st)) (snd (s_ir st)) x <-> inside v part x.
Proof. exact finds_proof. Qed.
Print Assumptions search_finds.
Example search_finds_example : exists v part, irreducible unit_basis about_x (cuboid 1) cuboid_faces v part /\ delimits [Q3 0 1 0; Q3 1 0 0]%Q (cuboid 1) cuboid_faces v part /\
  exists st0, attempts (fun _ _ => Throw) 2 unit_basis (fun l => l) about_x true (cuboid 1, cuboid_faces) (State (cuboid 1, cuboid_faces) None true false) [([Q3 0 1 0]%Q, true)] = Ok (false, st0).
Proof. destruct quarter_proof as (v & part & A & B). exists v, part. split; [exact A|]. split; [exact B|]. destruct (wrong_finish (fun _ _ => Throw) (State (cuboid 1, cuboid_faces) None true false) true) as (s & E). exists s. cbn [attempts]. rewrite E. reflexivity. Qed.
(** A candidate that a plane along a face of the zone divides into irreducible parts is not
    always divided by it: the first plane that leaves the right volume is taken. *)
Theorem search_finds_refuted : exists b ps fv ff v part ns n, independent b /\ point_group ps /\ In inversion ps /\ convex fv ff /\ ff <> [] /\ kept b ps fv ff /\
  irreducible b ps fv ff v part /\ delimits (ns ++ [n]) fv ff v part /\ (exists l, face_normals fv ff = Ok l /\ exists m q, In m l /\ (0 < q)%Q /\ m = qscale q n) /\
  forall hull founds, (forall f, In f founds -> fst f = ns) -> search hull 2 b (fun l => l) ps true (fv, ff) founds = Throw.
Proof. exact wrong_half_proof. Qed.
Print Assumptions search_finds_refuted.

(** Operations that keep all lengths keep the first zone. *)
Theorem group_keeps_zone : forall b ps pts faces, independent b -> point_group ps -> (forall m x y, In m ps -> carries b m x y -> (dot y y == dot x x)%Q) ->
  (forall x, inside pts faces x <-> first_zone b x) -> kept b ps pts faces.
Proof. exact kept_zone_proof. Qed.
Print Assumptions group_keeps_zone.
Example group_keeps_zone_example : independent unit_basis /\ point_group about_x /\ forall m x y, In m about_x -> carries unit_basis m x y -> (dot y y == dot x x)%Q.
Proof.
  split; [apply unit_independent|]. split; [apply about_x_group|]. intros m x y Hm (h & k & l & (X1 & X2 & X3) & (Y1 & Y2 & Y3)). unfold dot. rewrite X1, X2, X3, Y1, Y2, Y3. unfold combination, unit_basis. cbn [qx qy qz].
  destruct Hm as [<-|[<-|[<-|[<-|[]]]]]; cbn [I3 inversion m00 m01 m02 m10 m11 m12 m20 m21 m22]; change (inject_Z 1) with 1%Q; change (inject_Z 0) with 0%Q; change (inject_Z (-1)) with (-1)%Q; ring.
Qed.
