(** Theorems on the normals that cut the first Brillouin zone (C134). *)
From Coq Require Import QArith Lqa.
From Verif Require Import Base MatSpec IsometrySpec QPoint CutSpec ZoneSpec ApplySpec ZoneModel CuttingModel CuttingSpec CuttingFinalProofs.
Local Open Scope Q_scope.

(** ** C134: the normals of the search for the irreducible wedge *)

Theorem cuts_found : forall b ps two mir sort special,
  (forall r, In r ps -> finite_order r /\ r <> I3 /\ r <> inversion) -> (forall l s, In s (sort l) -> In s l) ->
  exists st groups, find_cuts b ps two mir sort special = Ok st /\ NoDup (map fst groups) /\
    (forall g, In g groups -> exists r, nth_error ps (fst g) = Some r /\ ((pow3 r 2 = I3 /\ length (snd g) = 1%nat) \/ (pow3 r 2 <> I3 /\ length (snd g) = 2%nat))) /\
    concat (map snd groups) = f_cuts st /\
    f_special st = filter (fun p => forallb (fun n => Qle_bool 0 (dot n p)) (f_cuts st)) special.
Proof. exact cuts_found_proof. Qed.
Print Assumptions cuts_found.

Theorem cuts_cover : forall b ps two mir sort special, independent b ->
  (forall r, In r ps -> finite_order r /\ r <> I3 /\ r <> inversion /\ small_matrix r /\ keeps_lengths b r /\ matching_axis b r) -> (forall l s, In s (sort l) -> In s l) ->
  exists st groups, find_cuts b ps two mir sort special = Ok st /\ NoDup (map fst groups) /\ concat (map snd groups) = f_cuts st /\
    forall g, In g groups -> exists r, nth_error ps (fst g) = Some r /\
      (covers b r (snd g) \/ (is_mirror r /\ exists n z a, snd g = [n] /\ stationary r z /\ direct b z a /\ dot n a == 0)).
Proof. exact cuts_cover_proof. Qed.
Print Assumptions cuts_cover.

(** A four-fold and a two-fold turn of a cube, and a three-fold turn about a diagonal. *)
Example cuts_case :
  (forall r, In r turns -> finite_order r /\ r <> I3 /\ r <> inversion /\ small_matrix r /\ keeps_lengths cube r /\ matching_axis cube r) /\
  match find_cuts cube turns true true (fun l => l) cube_corners with
  | Ok st => map (fun n => (Qred (qx n), Qred (qy n), Qred (qz n))) (f_cuts st) = [(1, 0, 1); (1#2, 1#2, 0); (1#2, -1#2, 0)] /\ length (f_special st) = 4%nat
  | _ => False
  end.
Proof. split; [exact turns_fit|]. vm_compute. auto. Qed.

(** The two-fold turns of a cube, about its edges and the diagonals of its faces: one of the nine
    mirror planes of the cube for each. *)
Example two_fold_planes_case :
  map (fun r => match find_cuts cube [r] true true (fun l => l) cube_corners with
                | Ok st => map (fun n => (Qred (qx n), Qred (qy n), Qred (qz n))) (f_cuts st)
                | _ => []
                end)
    [M3 1 0 0 0 (-1) 0 0 0 (-1); M3 (-1) 0 0 0 1 0 0 0 (-1); M3 (-1) 0 0 0 (-1) 0 0 0 1;
     M3 0 1 0 1 0 0 0 0 (-1); M3 0 (-1) 0 (-1) 0 0 0 0 (-1); M3 0 0 1 0 (-1) 0 1 0 0;
     M3 (-1) 0 0 0 0 1 0 1 0; M3 0 0 (-1) 0 (-1) 0 (-1) 0 0; M3 (-1) 0 0 0 0 (-1) 0 (-1) 0] =
    [[(0, 1, 0)]; [(0, 0, 1)]; [(1, 0, 0)]; [(1, -1, 0)]; [(1, 1, 0)]; [(1, 0, -1)]; [(0, 1, -1)]; [(1, 0, 1)]; [(0, 1, 1)]].
Proof. vm_compute. reflexivity. Qed.

Theorem two_fold_plane_refuted : exists b r special st n, independent b /\ small_matrix r /\ keeps_lengths b r /\ is_two_fold r /\
  find_cuts b [r] true true (fun l => l) special = Ok st /\ f_cuts st = [n] /\ ~ covers b r [n].
Proof. exact two_fold_plane_refuted_proof. Qed.
Print Assumptions two_fold_plane_refuted.

Theorem mirror_plane_refuted : exists b r special st n, independent b /\ small_matrix r /\ keeps_lengths b r /\ is_mirror r /\
  find_cuts b [r] false false (fun l => l) special = Ok st /\ f_cuts st = [n] /\ ~ covers b r [n].
Proof. exact mirror_plane_refuted_proof. Qed.
Print Assumptions mirror_plane_refuted.

(** ** C135: the stationary axis of an operation *)

Theorem axis_found : forall r, finite_order r -> small_matrix r -> r <> I3 -> r <> inversion -> stationary r (axis r).
Proof. exact axis_found_proof. Qed.
Print Assumptions axis_found.

Example axis_case : let r := M3 0 0 (-1) 1 (-1) (-1) (-1) 0 0 in finite_order r /\ small_matrix r /\ r <> I3 /\ r <> inversion /\ axis r = V3 1 1 (-1).
Proof.
  cbv zeta. split; [exists 2%nat; split; [lia|reflexivity]|]. split; [unfold small_matrix, l9; cbn [m00 m01 m02 m10 m11 m12 m20 m21 m22]; repeat (apply Forall_cons; [lia|]); apply Forall_nil|].
  split; [discriminate|]. split; [discriminate|reflexivity].
Qed.

Theorem axis_far_refuted : exists r, is_two_fold r /\ stationary r (V3 1 4 0) /\ axis r = V3 0 0 0.
Proof. exact axis_far_refuted_proof. Qed.
Print Assumptions axis_far_refuted.
