(** The construction of a nest of tetrahedra. *)
From Coq Require Import QArith.
From Verif Require Import Base WeightsModel WeightsSpec NestBuildModel NestBuildSpec NestBuildProofs NestLimitProofs NestBuildWitnessProofs.
Local Open Scope Q_scope.

(** C131.  The nest covers the hull of the points and nothing else, every node is a
    tetrahedron with its volume and a sphere around it, and no vertex occurs twice; there
    is an exception only if TetGen throws one. *)
Theorem nest_construction : forall tl poly nb mv guess, tools_ok tl -> spans poly ->
  match construct tl poly nb mv guess with
  | Ok (top, vs) =>
      (forall n, In n top -> nest_all (fun t => tet_ok t vs) n /\ small mv n nb) /\
      (forall x, hull poly x <-> exists n t, In n top /\ reaches vs x n t) /\
      distinct vs /\ (forall p, In p vs -> hull poly p)
  | Throw => exists ps v, spans ps /\ tetgen tl ps v = Throw
  | _ => False
  end.
Proof. exact construction_proof. Qed.
Print Assumptions nest_construction.

(** C131.  A point of the hull is found in the nest, with weights, and no other point. *)
Theorem nest_construction_found : forall tl poly nb mv guess top vs x, tools_ok tl -> spans poly -> construct tl poly nb mv guess = Ok (top, vs) ->
  (hull poly x -> exists n t iw, In n top /\ leaf_of n t /\ in_tet t vs x /\ nest_weights top vs x = Ok (Found iw) /\ iw <> [] /\
     all_positive iw /\ interpolates vs x iw /\ forall i w, In (i, w) iw -> In i (tet_indices t)) /\
  (~ hull poly x -> nest_weights top vs x = Ok (Found [])).
Proof. exact construction_search_proof. Qed.
Print Assumptions nest_construction_found.

(** C131.  If TetGen keeps to its limit no leaf is larger than the given volume. *)
Theorem nest_leaves_small : forall tl poly nb mv guess top vs, within_limit tl -> 0 < mv -> (0 < nb)%nat -> construct tl poly nb mv guess = Ok (top, vs) ->
  forall n t, In n top -> leaf_of n t -> vol t <= mv.
Proof. exact limit_proof. Qed.
Print Assumptions nest_leaves_small.

(** C131.  The tetrahedra, the keys of the permutation table and the flags of the vertices
    are those of the leaves. *)
Theorem nest_collected : forall tl poly nb mv guess top vs, tools_ok tl -> spans poly -> construct tl poly nb mv guess = Ok (top, vs) ->
  (forall c, In c (flat_map leaves top) <-> exists n t, In n top /\ leaf_of n t /\ corner t = c) /\
  (forall k, In k (flat_map (collect_keys (length vs)) top) <->
     exists n t i j, In n top /\ leaf_of n t /\ In i (tet_indices t) /\ In j (tet_indices t) /\ i <> j /\ k = (i * length vs + j)%nat) /\
  (exists f, vertex_is_leaf top (length vs) = Ok f /\ length f = length vs /\
     forall i, (i < length vs)%nat -> exists b, nth_error f i = Some b /\ (b = true <-> exists n t, In n top /\ leaf_of n t /\ In i (tet_indices t))) /\
  (forall n t i, In n top -> leaf_of n t -> In i (tet_indices t) -> (i < length vs)%nat).
Proof. exact collected_proof. Qed.
Print Assumptions nest_collected.

(** A tetrahedron of volume 4/3 and a limit of 1/3: halved at the root, kept, halved again. *)
Example some_construction : tools_ok some_tools /\ within_limit some_tools /\ spans corner_block /\
  exists top vs, construct some_tools corner_block 2 (1 # 3) 1 = Ok (top, vs) /\
    flat_map leaves top = [(0, 5, 2, 3); (5, 4, 2, 3); (4, 6, 2, 3); (6, 1, 2, 3)]%nat /\ length vs = 7%nat /\
    nth_error vs 5 = Some (6 # 4, 2 # 4, 0 # 4).
Proof.
  split; [exact some_tools_ok|]. split; [exact some_tools_limit|]. split; [exact corner_block_spans|]. eexists. eexists. split; [vm_compute; reflexivity|].
  repeat split; vm_compute; reflexivity.
Qed.
(** A limit that TetGen does not reach: its exception. *)
Example some_exception : construct some_tools corner_block 1 (1 # 3) 1 = Throw.
Proof. vm_compute. reflexivity. Qed.
(** No branches allowed: one large tetrahedron. *)
Example no_branches : exists top vs, construct some_tools corner_block 0 (1 # 3) 1 = Ok (top, vs) /\ flat_map leaves top = [(0, 1, 2, 3)%nat] /\ vs = corner_block.
Proof. eexists. eexists. split; [vm_compute; reflexivity|]. split; reflexivity. Qed.
