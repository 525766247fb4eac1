(** Theorems about interpolation weights (C42, C43, C70). *)
From Coq Require Import QArith Lqa.
From Verif Require Import Base WeightsModel WeightsSpec CubeWeightProofs TetWeightProofs NestProofs.
Local Open Scope Q_scope.

(** C42 *)
Theorem cube_weights_inside : forall vs vi lo hi x should,
  box_ok lo hi -> indexes vs vi (box_corners lo hi) -> in_box lo hi x ->
  exists iw, cube_weights vs vi x should = Ok (Found iw) /\
    all_positive iw /\ total iw == 1 /\
    (forall k l, blend vs (triaffine k l) iw == triaffine k l x) /\
    (forall i w, In (i, w) iw -> In i vi).
Proof. exact cube_inside_proof. Qed.
Print Assumptions cube_weights_inside.
Definition unit_corners : list point := box_corners (0, 0, 0) (1, 1, 1).
Lemma unit_ok : box_ok (0, 0, 0) (1, 1, 1) /\ indexes unit_corners [0; 1; 2; 3; 4; 5; 6; 7]%nat unit_corners.
Proof. split; [repeat split|]. unfold indexes, unit_corners. cbn [box_corners]. repeat constructor. Qed.
Example cube_inside_example : box_ok (0, 0, 0) (1, 1, 1) /\ indexes unit_corners [0; 1; 2; 3; 4; 5; 6; 7]%nat unit_corners /\
  in_box (0, 0, 0) (1, 1, 1) (1 # 2, 0, 1 # 4) /\
  exists a b c d, cube_weights unit_corners [0; 1; 2; 3; 4; 5; 6; 7]%nat (1 # 2, 0, 1 # 4) false = Ok (Found [(5, a); (4, b); (1, c); (0, d)]%nat) /\
    a == 1 # 8 /\ b == 1 # 8 /\ c == 3 # 8 /\ d == 3 # 8.
Proof.
  split; [apply unit_ok|]. split; [apply unit_ok|]. split.
  - repeat split; discriminate.
  - eexists _, _, _, _. split; [vm_compute; reflexivity|]. repeat split.
Qed.

(** What is rejected: the product of the distances to the farther faces exceeds the volume. *)
Theorem cube_weights_outside_partial : forall vs vi lo hi x, box_ok lo hi -> indexes vs vi (box_corners lo hi) ->
  cube_weights vs vi x false = Ok Elsewhere <->
  (px hi - px lo) * (py hi - py lo) * (pz hi - pz lo) <
  farther (px lo) (px hi) (px x) * farther (py lo) (py hi) (py x) * farther (pz lo) (pz hi) (pz x).
Proof. exact cube_outside_proof. Qed.
Print Assumptions cube_weights_outside_partial.
Example cube_outside_example : cube_weights unit_corners [0; 1; 2; 3; 4; 5; 6; 7]%nat (9 # 8, 0, 0) false = Ok Elsewhere.
Proof. reflexivity. Qed.

(** Points outside of the box may be given weights, and these do not sum to one. *)
Theorem cube_weights_outside_refuted : exists vs vi lo hi x iw,
  box_ok lo hi /\ indexes vs vi (box_corners lo hi) /\ ~ in_box lo hi x /\
  cube_weights vs vi x false = Ok (Found iw) /\ ~ total iw == 1.
Proof.
  eexists unit_corners, [0; 1; 2; 3; 4; 5; 6; 7]%nat, (0, 0, 0), (1, 1, 1), (11 # 10, 1 # 2, 1 # 2), _.
  split; [apply unit_ok|]. split; [apply unit_ok|]. split.
  - intros ((_ & H) & _). apply H. reflexivity.
  - split; [vm_compute; reflexivity|]. intros H. vm_compute in H. discriminate.
Qed.
Print Assumptions cube_weights_outside_refuted.

(** As called by the trellis, which states that the node should contain the point, a node
    never reports failure. *)
Theorem cube_weights_required_refuted : forall lo hi, box_ok lo hi -> forall vs vi, indexes vs vi (box_corners lo hi) ->
  forall x, exists iw, cube_weights vs vi x true = Ok (Found iw).
Proof.
  intros lo hi B vs vi I x. destruct (cube_weights_value vs vi lo hi x true B I) as (V & E). rewrite E.
  cbn [negb]. rewrite andb_false_r. eauto.
Qed.
Print Assumptions cube_weights_required_refuted.
Example cube_required_example : ~ in_box (0, 0, 0) (1, 1, 1) (5, 5, 5) /\
  exists iw, cube_weights unit_corners [0; 1; 2; 3; 4; 5; 6; 7]%nat (5, 5, 5) true = Ok (Found iw).
Proof.
  split; [intros ((_ & H) & _); now apply H|]. eexists. vm_compute. reflexivity.
Qed.

(** C43 *)
Theorem tetrahedra_weights_inside : forall vs x ts should, Forall (fun t => tet_ok t vs) ts ->
  (exists t, In t ts /\ in_tet t vs x) ->
  exists t iw, In t ts /\ in_tet t vs x /\ poly_weights ts vs x should = Ok (Found iw) /\
    all_positive iw /\ interpolates vs x iw /\ forall i w, In (i, w) iw -> In i (tet_indices t).
Proof. exact poly_inside_proof. Qed.
Print Assumptions tetrahedra_weights_inside.
Definition some_points : list point := [(1, 0, 0); (0, 1, 0); (0, 0, 1); (-1, 0, 0)].
Definition some_tet : tet := Tet (0, 1, 2, 3)%nat (0, 0, 0) 1 (1 # 3).
Lemma some_tet_ok : tet_ok some_tet some_points.
Proof.
  exists (1, 0, 0), (0, 1, 0), (0, 0, 1), (-1, 0, 0). split; [repeat split|]. split; [reflexivity|]. split; [reflexivity|].
  repeat constructor; discriminate.
Qed.
Lemma some_point_in : in_tet some_tet some_points (0, 1 # 4, 1 # 4).
Proof.
  exists (1, 0, 0), (0, 1, 0), (0, 0, 1), (-1, 0, 0). split; [repeat split|].
  exists (1 # 4), (1 # 4), (1 # 4), (1 # 4). repeat split; discriminate.
Qed.
Lemma some_point_out : ~ in_tet some_tet some_points (1 # 2, 1 # 2, 1 # 4).
Proof.
  intros H. apply (proj1 (leaf_contains_proof some_tet some_points _ some_tet_ok)) in H. vm_compute in H. discriminate.
Qed.
Example tetrahedra_inside_example : Forall (fun t => tet_ok t some_points) [some_tet] /\
  (exists t, In t [some_tet] /\ in_tet t some_points (0, 1 # 4, 1 # 4)) /\
  exists a b c d, poly_weights [some_tet] some_points (0, 1 # 4, 1 # 4) false = Ok (Found [(0, a); (1, b); (2, c); (3, d)]%nat) /\
    a == 1 # 4 /\ b == 1 # 4 /\ c == 1 # 4 /\ d == 1 # 4.
Proof.
  split; [constructor; [apply some_tet_ok|constructor]|]. split.
  - exists some_tet. split; [now left|apply some_point_in].
  - eexists _, _, _, _. split; [vm_compute; reflexivity|]. repeat split.
Qed.

(** A point in none of the tetrahedra is reported, unless the caller states that the node
    should contain it; then the weights still reproduce the point, except that a node
    without tetrahedra reads outside of its lists. *)
Theorem tetrahedra_weights_outside : forall vs x ts, Forall (fun t => tet_ok t vs) ts ->
  (forall t, In t ts -> ~ in_tet t vs x) ->
  poly_weights ts vs x false = Ok Elsewhere /\
  (ts <> [] -> exists iw, poly_weights ts vs x true = Ok (Found iw) /\ interpolates vs x iw) /\
  (ts = [] -> poly_weights ts vs x true = UB).
Proof. exact poly_outside_proof. Qed.
Print Assumptions tetrahedra_weights_outside.
Example tetrahedra_outside_example : forall t, In t [some_tet] -> ~ in_tet t some_points (1 # 2, 1 # 2, 1 # 4).
Proof. intros t [<-|[]]. exact some_point_out. Qed.

(** With that statement a point outside is not rejected and gets a negative weight. *)
Theorem tetrahedra_required_refuted : exists vs x ts iw i w, Forall (fun t => tet_ok t vs) ts /\
  (forall t, In t ts -> ~ in_tet t vs x) /\ poly_weights ts vs x true = Ok (Found iw) /\ In (i, w) iw /\ w < 0.
Proof.
  eexists some_points, (1 # 2, 1 # 2, 1 # 4), [some_tet], _, _, _.
  split; [constructor; [apply some_tet_ok|constructor]|]. split; [exact tetrahedra_outside_example|].
  split; [vm_compute; reflexivity|]. split; [right; right; right; left; reflexivity|]. reflexivity.
Qed.
Print Assumptions tetrahedra_required_refuted.

Theorem leaf_contains_correct : forall t vs x, tet_ok t vs ->
  (in_tet t vs x -> leaf_contains t vs x = Ok (Some true)) /\
  (~ in_tet t vs x -> leaf_contains t vs x = Ok (Some false)).
Proof. exact leaf_contains_proof. Qed.
Print Assumptions leaf_contains_correct.
Example leaf_contains_example : tet_ok some_tet some_points /\ in_tet some_tet some_points (0, 1 # 4, 1 # 4) /\
  ~ in_tet some_tet some_points (1 # 2, 1 # 2, 1 # 4).
Proof. split; [exact some_tet_ok|]. split; [exact some_point_in|exact some_point_out]. Qed.

(** C70 *)
Theorem nested_search_correct : forall vs x top, (forall n, In n top -> nest_all (fun t => tet_ok t vs) n) ->
  ((exists n t, In n top /\ reaches vs x n t) ->
     exists n t iw, In n top /\ reaches vs x n t /\ nest_weights top vs x = Ok (Found iw) /\ iw <> [] /\
       all_positive iw /\ interpolates vs x iw /\ forall i w, In (i, w) iw -> In i (tet_indices t)) /\
  ((forall n t, In n top -> ~ reaches vs x n t) -> nest_weights top vs x = Ok (Found [])).
Proof. exact nest_proof. Qed.
Print Assumptions nested_search_correct.
Definition some_nest : nest := Nest some_tet [Nest some_tet []].
Example nested_example : (forall n, In n [some_nest] -> nest_all (fun t => tet_ok t some_points) n) /\
  (exists n t, In n [some_nest] /\ reaches some_points (0, 1 # 4, 1 # 4) n t) /\
  (forall n t, In n [some_nest] -> ~ reaches some_points (1 # 2, 1 # 2, 1 # 4) n t).
Proof.
  split; [|split].
  - intros n [<-|[]]. cbn. repeat split; apply some_tet_ok.
  - exists some_nest, some_tet. split; [now left|]. apply reach_branch with (Nest some_tet []); [apply some_point_in|now left|].
    apply reach_leaf, some_point_in.
  - intros n t [<-|[]] R. inversion R; subst. now apply some_point_out.
Qed.
