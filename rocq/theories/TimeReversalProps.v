(** Point groups of the tabulated space groups and the addition of space inversion. *)
From Coq Require Import ZArith List Ascii String Permutation.
From Verif Require Import Base MatSpec MotionModel MotionSpec SymmetryModel SymmetrySpec SymmetryProofs HallModel HallSpec SpgTable SpgModel
  TimeReversalModel TimeReversalSpec TimeReversalProofs TimeReversalGroupProofs TimeReversalTabulatedProofs.
Import ListNotations.
Local Open Scope nat_scope.

(** C85. *)
Theorem unique_rotations : forall rotations time_reversal,
  get_unique_rotations rotations time_reversal =
    match rotations with
    | [] => UB
    | _ => Ok (firsts (rotations ++ (if time_reversal then map opposite rotations else [])))
    end.
Proof. exact unique_rotations_proof. Qed.
Print Assumptions unique_rotations.
Example unique_rotations_ex :
  let m := M3 1 0 0 0 (-1) 0 0 0 1 in
  get_unique_rotations [I3; m; I3; m] true = Ok [I3; m; opposite I3; opposite m].
Proof. reflexivity. Qed.
Theorem firsts_meaning : forall l, (forall x, In x (firsts l) <-> In x l) /\ NoDup (firsts l).
Proof. exact (fun l => conj (firsts_in l) (firsts_nodup l)). Qed.
Print Assumptions firsts_meaning.

(** C86. *)
Theorem tabulated_point_groups : forall sort oc i s, reorders sort -> (0 < i)%Z -> entry i = Some s ->
  exists sym p q, spacegroup_symmetry oc (list_ascii_of_string (hall s)) = Ok sym /\
    get_pointgroup_symmetry sort oc (list_ascii_of_string (hall s)) false = Ok p /\
    NoDup p /\ point_group p /\ List.length p = point_group_order (pointgroup s) /\
    (forall r, In r p <-> exists m, In m sym /\ rotp m = r) /\
    get_pointgroup_symmetry sort oc (list_ascii_of_string (hall s)) true = Ok q /\
    NoDup q /\ point_group q /\ (forall r, In r q <-> In r p \/ In (opposite r) p) /\
    List.length q = if in_dec m3_dec (opposite I3) p then List.length p else 2 * List.length p.
Proof. exact tabulated_point_groups_proof. Qed.
Print Assumptions tabulated_point_groups.
Example tabulated_point_groups_ex : reorders (fun l => l) /\ reorders (@rev m3) /\
  option_map hall (entry 350) = Some "P 4w"%string /\
  exists p q, get_pointgroup_symmetry (@rev m3) (fun _ => Throw) (list_ascii_of_string "P 4w") false = Ok p /\
    get_pointgroup_symmetry (@rev m3) (fun _ => Throw) (list_ascii_of_string "P 4w") true = Ok q /\
    List.length p = 4 /\ List.length q = 8.
Proof.
  split; [intros l; apply Permutation_refl|]. split; [intros l; apply Permutation_rev|]. split; [reflexivity|].
  eexists _, _. split; [vm_compute; reflexivity|]. split; [vm_compute; reflexivity|]. split; reflexivity.
Qed.

(** C64: for the tabulated groups, with operations of the same order kept as they were. *)
Theorem tabulated_point_inversion : forall oc i s, (0 < i)%Z -> entry i = Some s ->
  exists p r, get_pointgroup_symmetry by_order oc (list_ascii_of_string (hall s)) false = Ok p /\ Permutation p (by_order p) /\
    ps_add_space_inversion p (by_order p) = Ok r /\ NoDup r /\ point_group r /\
    (forall y, In y r <-> In y p \/ In (opposite y) p).
Proof. exact tabulated_point_inversion_proof. Qed.
Print Assumptions tabulated_point_inversion.
Example tabulated_point_inversion_ex : exists p r,
  get_pointgroup_symmetry by_order (fun _ => Throw) (list_ascii_of_string "P 4w") false = Ok p /\
  ps_add_space_inversion p (by_order p) = Ok r /\ List.length r = 8.
Proof. eexists _, _. split; [vm_compute; reflexivity|]. split; [vm_compute; reflexivity|]. reflexivity. Qed.
(** With another order of the operations of the same rotation order, operations are lost. *)
Theorem tabulated_point_inversion_refuted :
  exists i s p lA r y, (0 < i)%Z /\ entry i = Some s /\
    (forall oc, get_pointgroup_symmetry by_order oc (list_ascii_of_string (hall s)) false = Ok p) /\
    Permutation p lA /\ by_order lA = lA /\ ps_add_space_inversion p lA = Ok r /\ In y p /\ ~ In y r.
Proof. exact tabulated_point_inversion_refuted_proof. Qed.
Print Assumptions tabulated_point_inversion_refuted.

(** C87.  Full statement: for every group of motions the result of add_space_inversion is the smallest
    group with the motions and the inversion.  Shown for every group: the result has the inversion, is the
    group itself if that has it, and has nothing but motions of the group and their products with the
    inversion; it has all of these whenever the generators found generate the group. *)
Theorem add_inversion_partial : forall D, (0 < D)%Z -> forall s, closed motion (motion_mul D) (same_motion D) motion_id s ->
  exists r, sym_add_space_inversion D s = Ok r /\ member motion (same_motion D) inversion_at_origin r /\
    (member motion (same_motion D) inversion_at_origin s -> r = s) /\
    (forall y, member motion (same_motion D) y r ->
       member motion (same_motion D) y s \/ member motion (same_motion D) (motion_mul D inversion_at_origin y) s) /\
    forall gens, sym_generators D s = Ok gens -> (forall y, In y s -> member motion (same_motion D) y (sym_generate D gens)) ->
      forall y, member motion (same_motion D) y r <->
        member motion (same_motion D) y s \/ member motion (same_motion D) (motion_mul D inversion_at_origin y) s.
Proof. exact sym_inversion_proof. Qed.
Print Assumptions add_inversion_partial.
Example add_inversion_partial_ex : let m := Mo (M3 1 0 0 0 (-1) 0 0 0 1) (V3 0 0 6) in
  sym_has 12 [motion_id; m] (motion_mul 12 m m) = true /\ sym_generators 12 [motion_id; m] = Ok [m] /\
  exists r, sym_add_space_inversion 12 [motion_id; m] = Ok r /\ List.length r = 4.
Proof. split; [reflexivity|]. split; [vm_compute; reflexivity|]. eexists. split; [vm_compute; reflexivity|]. reflexivity. Qed.
(** For the tabulated groups the generators found generate the group. *)
Theorem tabulated_inversion : forall oc i s, (0 < i)%Z -> entry i = Some s ->
  exists sym r, spacegroup_symmetry oc (list_ascii_of_string (hall s)) = Ok sym /\
    sym_add_space_inversion 12 sym = Ok r /\ distinct motion (same_motion 12) r /\
    (forall y, member motion (same_motion 12) y r <->
       member motion (same_motion 12) y sym \/ member motion (same_motion 12) (motion_mul 12 inversion_at_origin y) sym) /\
    (member motion (same_motion 12) inversion_at_origin sym -> r = sym) /\
    (~ member motion (same_motion 12) inversion_at_origin sym -> List.length r = 2 * List.length sym).
Proof. exact tabulated_inversion_proof. Qed.
Print Assumptions tabulated_inversion.
Example tabulated_inversion_ex : exists sym r, spacegroup_symmetry (fun _ => Throw) (list_ascii_of_string "P 4w") = Ok sym /\
  sym_has_space_inversion 12 sym = false /\ sym_add_space_inversion 12 sym = Ok r /\ List.length r = 8.
Proof. eexists _, _. split; [vm_compute; reflexivity|]. split; [vm_compute; reflexivity|]. split; [vm_compute; reflexivity|]. reflexivity. Qed.
(** The result need not be a group, for a tabulated group, and for another group motions are lost. *)
Theorem inversion_group_refuted :
  exists i s sym r x y, (0 < i)%Z /\ entry i = Some s /\ (forall oc, spacegroup_symmetry oc (list_ascii_of_string (hall s)) = Ok sym) /\
    sym_add_space_inversion 12 sym = Ok r /\ In x r /\ In y r /\ ~ member motion (same_motion 12) (motion_mul 12 x y) r.
Proof. exact inversion_not_group_proof. Qed.
Print Assumptions inversion_group_refuted.
Theorem inversion_keeps_refuted :
  exists s r y, motion_group 1 s /\ sym_add_space_inversion 1 s = Ok r /\ In y s /\ ~ member motion (same_motion 1) y r.
Proof. exact inversion_loses_motions_proof. Qed.
Print Assumptions inversion_keeps_refuted.

(** C88. *)
Theorem point_to_space : forall sort oc i s tr, reorders sort -> (0 < i)%Z -> entry i = Some s ->
  exists sym p ps' sym' idx, spacegroup_symmetry oc (list_ascii_of_string (hall s)) = Ok sym /\
    get_pointgroup_symmetry sort oc (list_ascii_of_string (hall s)) false = Ok p /\
    point2space sort 12 tr p sym = Ok (ps', sym', idx) /\
    Forall2 (fun r k => exists x, nth_error sym' k = Some x /\ rotp x = r) ps' idx /\
    (forall y, member motion (same_motion 12) y sym' <->
       member motion (same_motion 12) y sym \/ (tr = true /\ member motion (same_motion 12) (motion_mul 12 inversion_at_origin y) sym)) /\
    (forall r, In r ps' -> In r p \/ (tr = true /\ In (opposite r) p)) /\ (tr = false -> ps' = p).
Proof. exact point2space_proof. Qed.
Print Assumptions point_to_space.
Example point_to_space_ex : exists sym p ps' sym' idx,
  spacegroup_symmetry (fun _ => Throw) (list_ascii_of_string "P 4w") = Ok sym /\
  get_pointgroup_symmetry by_order (fun _ => Throw) (list_ascii_of_string "P 4w") false = Ok p /\
  point2space by_order 12 true p sym = Ok (ps', sym', idx) /\ List.length idx = 8 /\ NoDup idx.
Proof.
  eexists _, _, _, _, _. split; [vm_compute; reflexivity|]. split; [vm_compute; reflexivity|]. split; [vm_compute; reflexivity|].
  split; [reflexivity|]. repeat (constructor; [cbn; intuition discriminate|]). constructor.
Qed.
