(** Theorem on the whole search for the irreducible wedge (C141). *)
From Coq Require Import QArith Permutation.
From Verif Require Import Base MatSpec IsometrySpec IsometryModel CuttingModel QPoint CutModel CutSpec ZoneModel ZoneSpec ApplySpec CheckIrWitnessProofs WedgeModel WedgeSpec WedgeWitnessProofs HalfEdgeSpec HalfEdgeProofs WedgeFullModel WedgeFullProofs WedgeAxisProofs.
Local Open Scope nat_scope.

(** ** C141: the search for the irreducible wedge from the first zone and its operations *)

Theorem wedge_search_whole : forall hull fuel sort by_length by_isometry by_number b ps has_inversion fv ff, 2 <= fuel -> independent b ->
  (forall l, Permutation l (sort l)) -> (forall l, Permutation l (by_length l)) -> (forall l, Permutation l (by_isometry l)) -> (forall l, Permutation l (by_number l)) ->
  point_group ps -> (exists m, In m ps /\ m <> I3 /\ m <> inversion) -> convex fv ff -> ff <> [] -> closed_surface fv ff -> kept b ps fv ff -> (has_inversion = true <-> In inversion ps) ->
  let result := wedge_search sort by_length by_isometry by_number b ps (fv, ff) hull fuel has_inversion in
  (In inversion ps -> result = Throw \/ exists st, result = Ok st /\ s_hull st = false) /\
  forall st, result = Ok st -> s_no_mirroring st = true /\
    (s_hull st = false -> irreducible b ps fv ff (fst (s_ir st)) (snd (s_ir st)) /\ exists ns, s_wedge st = Some ns /\ delimits ns fv ff (fst (s_ir st)) (snd (s_ir st))).
Proof. exact wedge_search_proof. Qed.
Print Assumptions wedge_search_whole.

(** A cube with a two-fold axis and a mirror plane: the first attempt succeeds. *)
Example wedge_search_case :
  point_group about_x /\ (exists m, In m about_x /\ m <> I3 /\ m <> inversion) /\ convex (cuboid 1) cuboid_faces /\ closed_surface (cuboid 1) cuboid_faces /\ kept unit_basis about_x (cuboid 1) cuboid_faces /\
  exists st, wedge_search (fun l => l) (fun l => l) (fun l => l) (fun l => l) unit_basis about_x (cuboid 1, cuboid_faces) (fun _ _ => Throw) 2 true = Ok st /\
    match s_wedge st with Some l => map (fun n => (Qred (qx n), Qred (qy n), Qred (qz n))) l = [(0, 2, 0); (2, 0, 0)]%Q | None => False end.
Proof.
  split; [apply about_x_group|]. split; [exists (M3 1 0 0 0 (-1) 0 0 0 (-1)); repeat split; [right; now left|discriminate|discriminate]|]. split; [apply cuboid_convex|]. split; [|split; [apply about_x_kept|]].
  - eapply closed_of_edges; [|vm_compute; reflexivity]. intros f Hf. repeat (destruct Hf as [<-|Hf]; [split; [discriminate|]; intros i Hi; cbn in Hi; cbn [length cuboid map]; lia|]). destruct Hf.
  - eexists. split; [vm_compute; reflexivity|]. vm_compute. reflexivity.
Qed.

(** The normals come with whether all operations of an order of two or more have the same axis;
    there is at least one such operation. *)
Theorem one_axis_flag : forall sort by_length by_isometry by_number b ps first s ns one, (forall l, Permutation l (sort l)) -> (forall l, Permutation l (by_length l)) -> (forall l, Permutation l (by_isometry l)) ->
  brute_normals sort by_length by_isometry by_number b ps first s = Ok (ns, one) ->
  (exists m, In m ps /\ (1 < rotation_order (l9 m))%Z) /\
  (one = true <-> forall m n, In m ps -> In n ps -> (1 < rotation_order (l9 m))%Z -> (1 < rotation_order (l9 n))%Z -> axis m = axis n).
Proof. exact one_axis_proof. Qed.
Print Assumptions one_axis_flag.
Example one_axis_flag_case :
  (exists ns, brute_normals (fun l => l) (fun l => l) (fun l => l) (fun l => l) unit_basis about_x (cuboid 1, cuboid_faces) (true, true, true, true) = Ok (ns, true)) /\
  exists ns, brute_normals (fun l => l) (fun l => l) (fun l => l) (fun l => l) unit_basis [I3; M3 1 0 0 0 (-1) 0 0 0 (-1); M3 (-1) 0 0 0 1 0 0 0 (-1); M3 (-1) 0 0 0 (-1) 0 0 0 1] (cuboid 1, cuboid_faces) (true, true, true, true) = Ok (ns, false).
Proof. split; eexists; vm_compute; reflexivity. Qed.

(** No attempt is made twice; two-fold axes and mirrors are handled separately or not in every
    combination with the default sorts, and the other sorts are tried too.  A finite table. *)
Theorem attempts_differ : NoDup tried /\ (forall two mir, In (two, mir, true, true) tried) /\ In (true, true, false, true) tried /\ In (false, false, false, false) tried.
Proof. exact attempts_proof. Qed.
Print Assumptions attempts_differ.
