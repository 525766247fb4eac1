(** The cutting normals: what the search finds, and where it goes wrong. *)
From Coq Require Import QArith Lqa.
From Verif Require Import Base Array2Model MatSpec IsometrySpec IsometryModel MatProofs IsometryProofs QPoint CutModel CutSpec CutGeomProofs VolumeSpec VolumeProofs MoveProofs SameSetProofs.
From Verif Require Import ZoneModel ZoneSpec ApplyModel ApplySpec LinearProofs ApplyProofs CheckIrProofs WedgeModel CuttingModel CuttingSpec CuttingCoverProofs CuttingRunProofs CuttingStagesProofs CuttingAxisProofs CuttingProofs.
Local Open Scope Q_scope.

Lemma pow2_proper r : det3 r = 1%Z \/ det3 r = (-1)%Z -> pow3 (proper_part r) 2 = pow3 r 2.
Proof.
  intros D. unfold proper_part. destruct r as [a b c d e f g h i]. generalize dependent (det3 (M3 a b c d e f g h i)). intros z [->| ->]; unfold scale3, pow3, mul3, I3; cbn [m00 m01 m02 m10 m11 m12 m20 m21 m22]; f_equal; ring.
Qed.
Lemma order_above r : finite_order r -> r <> I3 -> r <> inversion -> (1 < order_of r)%nat /\ (order_of r = 2%nat <-> pow3 r 2 = I3).
Proof.
  intros Fr N1 N2. pose proof (finite_det r Fr) as D. destruct (isometry_correct_proof r Fr) as (k & (O1 & O2 & O3) & Hk & E & _).
  assert (Ek : order_of r = k) by (unfold order_of; rewrite E; apply Nat2Z.id). rewrite Ek.
  assert (Nk : k <> 1%nat).
  { intros ->. assert (P1 : proper_part r = I3). { rewrite <- O2. destruct (proper_part r) as [x0 x1 x2 x3 x4 x5 x6 x7 x8]. unfold pow3, mul3, I3. cbn [m00 m01 m02 m10 m11 m12 m20 m21 m22]. f_equal; ring. }
    assert (R : r = scale3 (det3 r) I3). { rewrite <- P1. unfold proper_part. destruct D as [D|D]; rewrite D; clear; destruct r as [x0 x1 x2 x3 x4 x5 x6 x7 x8]; unfold scale3; cbn [m00 m01 m02 m10 m11 m12 m20 m21 m22]; f_equal; ring. }
    destruct D as [D|D]; rewrite D in R; [apply N1|apply N2]; rewrite R; reflexivity. }
  split; [lia|]. rewrite <- (pow2_proper r D). split; [intros ->; exact O2|]. intros P. destruct (Nat.le_gt_cases k 2) as [H|H]; [lia|]. exfalso. exact (O3 2%nat ltac:(lia) P).
Qed.

Lemma arises_number b r ns : finite_order r -> r <> I3 -> r <> inversion -> arises b r ns -> (pow3 r 2 = I3 /\ length ns = 1%nat) \/ (pow3 r 2 <> I3 /\ length ns = 2%nat).
Proof.
  intros Fr N1 N2 A. destruct (order_above r Fr N1 N2) as (_ & O).
  destruct A as [e1 e2 k V _ _ _ _|k V _ _|s V|p pt0 pt1 j V _ _ _ _ _|pt s V _].
  - left. split; [apply O, isometry_order; now left|reflexivity].
  - left. split; [apply O, isometry_order; now left|reflexivity].
  - left. split; [apply O, isometry_order; now right|reflexivity].
  - right. split; [intros H; apply O in H; lia|destruct (qneg _); reflexivity].
  - left. split; [now apply O|reflexivity].
Qed.
Lemma good_spec ns : forall p, good ns p = forallb (fun n => Qle_bool 0 (dot n p)) ns.
Proof. induction ns as [|n ns IH]; intros p; cbn [good forallb]; [reflexivity|]. f_equal; [|apply IH]. unfold qneg. now rewrite negb_involutive. Qed.

Lemma cuts_found_proof b ps two mir sort special : (forall r, In r ps -> finite_order r /\ r <> I3 /\ r <> inversion) -> (forall l s, In s (sort l) -> In s l) ->
  exists st groups, find_cuts b ps two mir sort special = Ok st /\ NoDup (map fst groups) /\
    (forall g, In g groups -> exists r, nth_error ps (fst g) = Some r /\ ((pow3 r 2 = I3 /\ length (snd g) = 1%nat) \/ (pow3 r 2 <> I3 /\ length (snd g) = 2%nat))) /\
    concat (map snd groups) = f_cuts st /\
    f_special st = filter (fun p => forallb (fun n => Qle_bool 0 (dot n p)) (f_cuts st)) special.
Proof.
  intros Hp So. destruct (find_cuts_ok b ps (fun r Hr => proj1 (order_above r (proj1 (Hp r Hr)) (proj1 (proj2 (Hp r Hr))) (proj2 (proj2 (Hp r Hr))))) two mir sort special So) as (st & gs & E & [L N F C U K]).
  exists st, gs. split; [exact E|]. split; [exact N|]. split; [|split; [exact C|]].
  - intros g Hg. rewrite Forall_forall in F. destruct (F g Hg) as (Hl & A). exists (nth (fst g) ps I3). split; [now apply nth_error_nth'|]. destruct (Hp _ (nth_In ps I3 Hl)) as (Fr & N1 & N2). now apply (arises_number b).
  - rewrite K. apply filter_ext. intros p. apply good_spec.
Qed.
Lemma cuts_cover_proof b ps two mir sort special : independent b ->
  (forall r, In r ps -> finite_order r /\ r <> I3 /\ r <> inversion /\ small_matrix r /\ keeps_lengths b r /\ matching_axis b r) -> (forall l s, In s (sort l) -> In s l) ->
  exists st groups, find_cuts b ps two mir sort special = Ok st /\ NoDup (map fst groups) /\ concat (map snd groups) = f_cuts st /\
    forall g, In g groups -> exists r, nth_error ps (fst g) = Some r /\
      (covers b r (snd g) \/ (is_mirror r /\ exists n z a, snd g = [n] /\ stationary r z /\ direct b z a /\ dot n a == 0)).
Proof.
  intros I Hp So. assert (Hq : forall r, In r ps -> (1 < order_of r)%nat) by (intros r Hr; destruct (Hp r Hr) as (Fr & N1 & N2 & _); now apply order_above).
  destruct (find_cuts_ok b ps Hq two mir sort special So) as (st & gs & E & [L N F C U K]).
  exists st, gs. split; [exact E|]. split; [exact N|]. split; [exact C|].
  intros g Hg. rewrite Forall_forall in F. destruct (F g Hg) as (Hl & A). exists (nth (fst g) ps I3). split; [now apply nth_error_nth'|]. destruct (Hp _ (nth_In ps I3 Hl)) as (Fr & N1 & N2 & Sm & Kr & Ma). set (r := nth (fst g) ps I3) in *.
  pose proof (axes_found_proof r Fr Sm N1 N2) as Ax. destruct (covers_arises b r I Fr Kr Ax (snd g) Sm Ma A) as [Cv|(Mi & n & En & Dn)]; [now left|right]. split; [exact Mi|].
  exists n, (axis r), (axis_of b r). split; [exact En|]. split; [apply axis_good; assumption|]. split; [apply direct_proof, I|exact Dn].
Qed.
Lemma axis_found_proof r : finite_order r -> small_matrix r -> r <> I3 -> r <> inversion -> stationary r (axis r).
Proof. intros Fr Sm N1 N2. apply axis_stationary_proof; [now apply finite_det|now apply axes_found_proof]. Qed.

(** ** Witnesses *)
(** Turns of a point that the operation keeps. *)
Lemma kept_turns b r x y : independent b -> same_place (rotate b r x) x -> turns_to b r x y -> same_place x y.
Proof.
  intros I K. induction 1 as [y E|y z H IH C]; [exact E|]. apply (carries_rotate b r y z I) in C. apply (place_trans _ (rotate b r y)); [|now apply place_sym].
  apply (place_trans _ (rotate b r x)); [now apply place_sym|]. now apply rotate_place.
Qed.
Lemma kept_uncovered b r x n : independent b -> same_place (rotate b r x) x -> dot n x < 0 -> ~ covers b r [n].
Proof.
  intros I K D C. destruct (C x) as (y & T & H). apply (kept_turns b r x y I K) in T. specialize (H n (or_introl eq_refl)). rewrite <- (dot_place _ _ _ T) in H. lra.
Qed.
Ltac lengths := intros x y (h & k & l & Ex & Ey); rewrite !(dot_place _ _ _ Ex), !(dot_place _ _ _ Ey), (dot_comm x), (dot_comm y), (dot_place _ _ _ Ex), (dot_place _ _ _ Ey);
  unfold combination, dot, qadd, qscale; cbn [qx qy qz m00 m01 m02 m10 m11 m12 m20 m21 m22]; unfold inject_Z; ring.

Definition skew : basis := (Q3 1 (-1) 1, Q3 1 1 0, Q3 (-1) (-1) 1).
Definition skew_turn : m3 := M3 0 0 (-1) 1 (-1) (-1) (-1) 0 0.
Definition skew_points : list q3 :=
  [Q3 (1#2) (-1#2) (1#2); Q3 (1#2) (1#2) 0; Q3 (-1#2) (-1#2) (1#2); Q3 (-1#2) (1#2) (-1#2); Q3 (-1#2) (-1#2) 0; Q3 (1#2) (1#2) (-1#2)].
Definition found_of (o : outcome found) : found := match o with Ok st => st | _ => Found [] [] [] end.
Lemma two_fold_plane_refuted_proof : exists b r special st n, independent b /\ small_matrix r /\ keeps_lengths b r /\ is_two_fold r /\
  find_cuts b [r] true true (fun l => l) special = Ok st /\ f_cuts st = [n] /\ ~ covers b r [n].
Proof.
  exists skew, skew_turn, skew_points. eexists. eexists.
  assert (I : independent skew) by (cbv; discriminate). split; [exact I|].
  split; [unfold small_matrix, l9, skew_turn; cbn [m00 m01 m02 m10 m11 m12 m20 m21 m22]; repeat (apply Forall_cons; [lia|]); apply Forall_nil|]. split; [unfold keeps_lengths, skew, skew_turn; lengths|].
  split; [split; [reflexivity|split; [reflexivity|discriminate]]|]. split; [vm_compute; reflexivity|]. split; [cbn [f_cuts]; reflexivity|].
  apply (kept_uncovered _ _ (Q3 (-1) 0 0) _ I); [vm_compute; repeat split; reflexivity|vm_compute; reflexivity].
Qed.
Definition cube : basis := (Q3 1 0 0, Q3 0 1 0, Q3 0 0 1).
Definition cube_corners : list q3 :=
  map (fun t => let '(x, y, z) := t in Q3 (x # 2) (y # 2) (z # 2)) [(1, 1, 1); (1, 1, -1); (1, -1, 1); (1, -1, -1); (-1, 1, 1); (-1, 1, -1); (-1, -1, 1); (-1, -1, -1)]%Z.
Definition mirror_z : m3 := M3 1 0 0 0 1 0 0 0 (-1).
Lemma mirror_plane_refuted_proof : exists b r special st n, independent b /\ small_matrix r /\ keeps_lengths b r /\ is_mirror r /\
  find_cuts b [r] false false (fun l => l) special = Ok st /\ f_cuts st = [n] /\ ~ covers b r [n].
Proof.
  exists cube, mirror_z, cube_corners. eexists. eexists.
  assert (I : independent cube) by (cbv; discriminate). split; [exact I|].
  split; [unfold small_matrix, l9, mirror_z; cbn [m00 m01 m02 m10 m11 m12 m20 m21 m22]; repeat (apply Forall_cons; [lia|]); apply Forall_nil|]. split; [unfold keeps_lengths, cube, mirror_z; lengths|].
  split; [split; [reflexivity|split; reflexivity]|]. split; [vm_compute; reflexivity|]. split; [cbn [f_cuts]; reflexivity|].
  apply (kept_uncovered _ _ (Q3 1 (-1) 0) _ I); [vm_compute; repeat split; reflexivity|vm_compute; reflexivity].
Qed.
Definition far_turn : m3 := M3 (-31) 8 0 (-120) 31 0 0 0 (-1).
Lemma axis_far_refuted_proof : exists r, is_two_fold r /\ stationary r (V3 1 4 0) /\ axis r = V3 0 0 0.
Proof. exists far_turn. repeat split; try discriminate; reflexivity. Qed.
(** A four-fold and a two-fold turn of a cube, and a three-fold turn about a diagonal. *)
Definition turns : list m3 := [M3 0 (-1) 0 1 0 0 0 0 1; M3 0 0 (-1) 0 (-1) 0 (-1) 0 0; M3 0 0 1 1 0 0 0 1 0].
Lemma turns_fit r : In r turns -> finite_order r /\ r <> I3 /\ r <> inversion /\ small_matrix r /\ keeps_lengths cube r /\ matching_axis cube r.
Proof.
  intros Hr. cbn [turns In] in Hr.
  assert (M : matching_axis cube r).
  { intros _ z a d _ _ P (D0 & D1 & D2). unfold parallel, same_place, cross, lattice_point, combination, qadd, qscale, dot in *. cbn [cube qx qy qz v0 v1 v2] in *. unfold inject_Z in *. destruct P as (P0 & P1 & P2). 
    assert (E0 : qx d == 1) by lra. assert (E1 : qy d == 0) by lra. assert (E2 : qz d == -1) by lra. rewrite E0, E1, E2. lra. }
  destruct Hr as [<-|[<-|[<-|[]]]]; (split; [|split; [discriminate|split; [discriminate|split; [unfold small_matrix, l9; cbn [m00 m01 m02 m10 m11 m12 m20 m21 m22]; repeat (apply Forall_cons; [lia|]); apply Forall_nil|split; [unfold keeps_lengths, cube; lengths|exact M]]]]]).
  - exists 4%nat. split; [lia|reflexivity].
  - exists 2%nat. split; [lia|reflexivity].
  - exists 3%nat. split; [lia|reflexivity].
Qed.
