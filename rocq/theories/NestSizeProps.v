(** The volumes of the levels of nests and layers, and the connections of layers. *)
From Coq Require Import QArith Lqa.
From Verif Require Import Base WeightsModel WeightsSpec NestBuildModel NestBuildSpec NestBuildWitnessProofs NestSizeSpec NestSizeProofs NestInsideSpec LayersModel LayersSpec LayersWitnessProofs LayersMeetSpec LayersConnectProofs.
Local Open Scope Q_scope.

(** C131.  With a TetGen that keeps to its limit the branches of the root are those of the
    unlimited division if it has two tetrahedra or more and otherwise no larger than the
    [nb - 1]-th limit of that division; the levels below are no larger than the limits that
    follow from the largest branch of the root, the last one the given volume. *)
Theorem nest_levels : forall tl poly nb mv guess top vs, tools_ok tl -> within_limit tl -> spans poly -> 0 < mv -> (0 < nb)%nat -> (forall q k, (0 < k)%nat -> 0 < power tl q k) ->
  construct tl poly nb mv guess = Ok (top, vs) -> exists m0 q0 q, tetgen tl poly None = Ok m0 /\ mesh_largest m0 q0 /\
    (exists n, In n top /\ vol (node n) = q) /\
    (forall n, In n top -> vol (node n) <= q /\ levels (fun left => mv * (match left with O => 1 | _ => power tl q left end)) (nb - 1) n) /\
    ((2 <= length (tetrahedra m0))%nat -> q = q0 /\ length top = length (tetrahedra m0)) /\
    ((length (tetrahedra m0) < 2)%nat -> 0 < power tl q0 (nb - 1) -> q <= mv * power tl q0 (nb - 1)).
Proof. exact nest_levels_proof. Qed.
Print Assumptions nest_levels.

(** C132.  With a TetGen that keeps to its limit no tetrahedron of the last layer is larger
    than the given volume, and those of the layers between no larger than the scaled largest
    volume of the last. *)
Theorem layers_small : forall tl scale ps mc count ls, within_limit tl -> 0 < mc -> triangulate tl scale ps mc count = Ok ls ->
  (exists r l, ls = r ++ [l] /\ forall t, In t (ltets l) -> vol t <= mc) /\
  ((2 <= count)%nat -> exists top mid bottom high low, ls = top :: mid ++ [bottom] /\ largest top high /\ largest bottom low /\ length mid = (count - 2)%nat /\
     forall k l t, nth_error mid k = Some l -> 0 < low * scale high low count (count - 1 - k)%nat -> In t (ltets l) -> vol t <= low * scale high low count (count - 1 - k)%nat).
Proof. exact layers_small_proof. Qed.
Print Assumptions layers_small.

(** C132.  A tetrahedron is connected to those of the next layer that have a corner in it or
    overlap it, and to no others. *)
Theorem layers_connected : forall fuel ps ls, (2 <= fuel)%nat -> ls <> [] -> Forall (layer_ok ps) ls -> exists cs, connections fuel ls = Ok cs /\ length cs = (length ls - 1)%nat /\
  forall k h l c, nth_error ls k = Some h -> nth_error ls (S k) = Some l -> nth_error cs k = Some c -> length c = length (ltets h) /\
    forall i t js, nth_error (ltets h) i = Some t -> nth_error c i = Some js ->
    forall j, In j js <-> exists u, nth_error (ltets l) j = Some u /\ meets h t l u.
Proof. exact connections_exact_proof. Qed.
Print Assumptions layers_connected.

(** The nest of [some_construction]: halved at the root, whole, halved. *)
Example some_levels : tools_ok some_tools /\ within_limit some_tools /\ spans corner_block /\ (forall q k, (0 < k)%nat -> 0 < power some_tools q k) /\
  exists top vs, construct some_tools corner_block 2 (1 # 3) 1 = Ok (top, vs) /\ map (fun n => Qeq_bool (vol (node n)) (2 # 3)) top = [true; true].
Proof.
  split; [exact some_tools_ok|]. split; [exact some_tools_limit|]. split; [exact corner_block_spans|]. split.
  - intros q k K. cbn [power some_tools]. assert (0 < inject_Z (Z.of_nat k)) by (change 0 with (inject_Z 0); rewrite <- Zlt_Qlt; lia). lra.
  - eexists. eexists. split; vm_compute; reflexivity.
Qed.
Example three_layers : exists ls, triangulate some_tools (fun _ _ _ _ => 1) corner_block 1 3 = Ok ls /\ map (fun l => length (ltets l)) ls = [1; 2; 2]%nat /\
  map (fun l => map (fun t => Qeq_bool (vol t) (2 # 3)) (ltets l)) ls = [[false]; [true; true]; [true; true]].
Proof. eexists. split; [vm_compute; reflexivity|]. split; vm_compute; reflexivity. Qed.
Example two_connected : Forall (layer_ok corner_block) two_layers /\ connections 2 two_layers = Ok [[[0; 1]]]%nat.
Proof. split; [exact (proj2 two_layers_ok)|]. vm_compute. reflexivity. Qed.
