(** Theorems about moving points into a Brillouin zone (C53, C54, C78, C79). *)
From Coq Require Import QArith Qround Lqa.
From Verif Require Import Base MatSpec PrimitiveModel PrimitiveSpec BzMoveModel BzMoveSpec BzMoveProofs.
Local Open Scope Z_scope.

(** A simple cubic zone, |x|, |y|, |z| <= 1/2, with the face products themselves as scores, and
    the operations 1 and the two-fold axis along z. *)
Definition half_up (q : Q) : Z := Qfloor (q + (1 # 2)).
Definition cube_planes : list (qvec * qvec * qvec) :=
  let h := (1 # 2)%Q in let m := (- (1 # 2))%Q in
  [((h, 0, 0), (h, 1, 0), (h, 0, 1)); ((m, 0, 0), (m, 0, 1), (m, 1, 0));
   ((0, h, 0), (0, h, 1), (1, h, 0)); ((0, m, 0), (1, m, 0), (0, m, 1));
   ((0, 0, h), (1, 0, h), (0, 1, h)); ((0, 0, m), (0, 1, m), (1, 0, m))]%Q.
Definition cube_scores (q : qvec) : list (Z * Q) :=
  let '(x, y, z) := q in map (fun d => (half_up d, d)) [x; - x; y; - y; z; - z]%Q.
Definition turn_z : m3 := M3 (-1) 0 0 0 (-1) 0 0 0 1.
Definition cube (b : bravais) (p : bool) (w : list qvec) : zone :=
  Zone b p cube_planes [(1, 0, 0); (-1, 0, 0); (0, 1, 0); (0, -1, 0); (0, 0, 1); (0, 0, -1)] cube_scores [I3; turn_z] w true.

(** A result is a point of the zone, and with the reported lattice vector the original point. *)
Theorem moveinto_correct : forall z rnd l Qs res, moveinto z rnd l Qs = Ok res ->
  Forall2 (fun p o => splits p (fst o) (snd o) /\ zone_at z l (fst o)) Qs res.
Proof. exact moveinto_proof. Qed.
Print Assumptions moveinto_correct.
Theorem moveinto_defined : forall z rnd l Qs,
  planes z <> [] -> (forall q, length (scores z q) = length (taus z)) ->
  (exists res, moveinto z rnd l Qs = Ok res) \/ moveinto z rnd l Qs = Throw.
Proof. exact moveinto_defined_proof. Qed.
Print Assumptions moveinto_defined.
Example moveinto_example : exists q, moveinto (cube B_P true []) half_up Conventional [(7 # 4, -(13 # 4), 1 # 4)%Q] = Ok [(q, (2, -3, 0))] /\
  same_vec q (-(1 # 4), -(1 # 4), 1 # 4)%Q.
Proof. eexists. split; [vm_compute; reflexivity|]. repeat split. Qed.
(** A rounding which leaves work for the loop. *)
Example moveinto_loop_example : exists q, moveinto (cube B_P true []) (fun _ => 0) Conventional [(7 # 4, 0, 1 # 4)%Q] = Ok [(q, (2, 0, 0))] /\
  same_vec q (-(1 # 4), 0, 1 # 4)%Q.
Proof. eexists. split; [vm_compute; reflexivity|]. repeat split. Qed.
Example moveinto_defined_example : planes (cube B_P true []) <> [] /\ forall q, length (scores (cube B_P true []) q) = length (taus (cube B_P true [])).
Proof. split; [discriminate|]. intros [[x y] z]. reflexivity. Qed.

(** The irreducible zone: the original point is the turned result plus the lattice vector. *)
Theorem ir_moveinto_correct : forall z rnd l Qs old res, In I3 (ops z) -> ir_moveinto z rnd l Qs old = Ok res ->
  Forall2 (fun p o => let '(q, t, (i, j)) := o in
     in_wedge (negb (no_ir_mirroring z)) (wedge z) q /\
     exists R p1, undo (ops z) i j R /\ splits p p1 t /\ same_vec p1 (turn R q) /\ in_zone (planes z) p1) Qs res.
Proof. exact ir_moveinto_proof. Qed.
Print Assumptions ir_moveinto_correct.
Example ir_moveinto_example : exists q, ir_moveinto (cube B_P true [(1, 0, 0)%Q]) half_up Conventional [(3 # 4, 0, 1 # 4)%Q] [] = Ok [(q, (1, 0, 0), (1, 1)%nat)] /\
  same_vec q (1 # 4, 0, 1 # 4)%Q.
Proof. eexists. split; [vm_compute; reflexivity|]. repeat split. Qed.

(** The irreducible wedge: the same for points of which some image is in the wedge ... *)
Theorem wedge_move_correct : forall z l Qs old res, In I3 (ops z) -> length old = length Qs -> Forall (reachable z) Qs ->
  ir_moveinto_wedge z l Qs old = Ok res ->
  Forall2 (fun p o => in_wedge (negb (no_ir_mirroring z)) (wedge z) (fst o) /\
     exists R j, undo (ops z) (snd o) j R /\ same_vec p (turn R (fst o))) Qs res.
Proof. exact wedge_proof. Qed.
Print Assumptions wedge_move_correct.
Example wedge_move_example : reachable (cube B_P true [(1, 0, 0)%Q]) (-(1), 0, 2)%Q /\
  exists q, ir_moveinto_wedge (cube B_P true [(1, 0, 0)%Q]) Conventional [(-(1), 0, 2)%Q] [((0, 0, 0)%Q, 0%nat)] = Ok [(q, 1%nat)] /\ same_vec q (1, 0, 2)%Q.
Proof.
  split.
  - right. exists turn_z. split; [simpl; auto|]. left. intros n [<-|[]]. vm_compute. discriminate.
  - eexists. split; [vm_compute; reflexivity|]. repeat split.
Qed.
(** ... but for others what the output held before is tested, and a success is reported for it. *)
Theorem wedge_move_refuted : exists z Qs old res, In I3 (ops z) /\ length old = length Qs /\
  ir_moveinto_wedge z Conventional Qs old = Ok res /\
  exists p o, nth_error Qs 0 = Some p /\ nth_error res 0 = Some o /\
    forall i j R, undo (ops z) i j R -> ~ same_vec p (turn R (fst o)).
Proof.
  exists (cube B_P true [(0, 0, 1)%Q]), [(0, 0, -(1))%Q], [((0, 0, 0)%Q, 0%nat)], [((0, 0, 0)%Q, 0%nat)].
  split; [simpl; auto|]. split; [reflexivity|]. split; [vm_compute; reflexivity|].
  eexists _, _. split; [reflexivity|]. split; [reflexivity|]. intros i j R _ (_ & _ & E).
  cbn [fst turn] in E. lra.
Qed.
Print Assumptions wedge_move_refuted.

(** A centred lattice without the primitive option: only the rounding is ever applied ... *)
Theorem moveinto_unshifted_partial : forall z rnd Qs res, brav z <> B_P -> prim z = false -> moveinto z rnd Conventional Qs = Ok res ->
  Forall2 (fun p o => exists p', q_to (brav z) InverseAngstrom p = Ok p' /\ z_from (brav z) InverseAngstrom (round3 rnd p') = Ok (snd o)) Qs res.
Proof. exact unshifted_proof. Qed.
Print Assumptions moveinto_unshifted_partial.
Example unshifted_example : exists q, moveinto (cube B_I false []) half_up Conventional [(5 # 4, 1, 1 # 4)%Q] = Ok [(q, (1, 1, 0))] /\
  same_vec q (1 # 4, 0, 1 # 4)%Q.
Proof. eexists. split; [vm_compute; reflexivity|]. repeat split. Qed.
(** ... and there is an error for a point which is in the zone already. *)
Theorem moveinto_centred_refuted : exists z p, planes z <> [] /\ (forall q, length (scores z q) = length (taus z)) /\
  moveinto z half_up Conventional [p] = Throw /\ in_zone (planes z) p.
Proof.
  exists (cube B_I false []), (9 # 20, 9 # 20, -(9 # 20))%Q. split; [discriminate|]. split; [intros [[x y] w]; reflexivity|].
  split; [vm_compute; reflexivity|]. apply (inside_planes_spec _ _ true); vm_compute; reflexivity.
Qed.
Print Assumptions moveinto_centred_refuted.
